{
 "claims": [
  {
   "property": "C01",
   "status": "proved",
   "theorems": [
    "C01_cmp_strict_total_orders",
    "C01_cmp_selection",
    "C01_cmp_names"
   ],
   "note": "complete"
  },
  {
   "property": "C02",
   "status": "proved",
   "theorems": [
    "C02_heap_priority_queue"
   ],
   "note": "complete: all histories of Push/Pop/Top/Size/Empty refine a bag"
  },
  {
   "property": "C03",
   "status": "proved",
   "theorems": [
    "C03_heap_keeps_best",
    "C03_heap_limit_respected"
   ],
   "note": "complete"
  },
  {
   "property": "C04",
   "status": "proved",
   "theorems": [
    "C04_sort_heap_sorts"
   ],
   "note": "complete"
  },
  {
   "property": "C05",
   "status": "proved",
   "theorems": [
    "C05_make_heap_establishes",
    "C05_check_heap_decides"
   ],
   "note": "complete"
  },
  {
   "property": "C06",
   "status": "partial",
   "theorems": [
    "C06_reverse_partial",
    "C06_reverse_refuted"
   ],
   "note": "exact behaviour proved for every slice; the claim is false for the empty slice, where the code panics"
  },
  {
   "property": "C56",
   "status": "partial",
   "theorems": [
    "C56_stl_variant_pop_partial",
    "C56_stl_variant_make_heap_refuted"
   ],
   "note": "PopHeap is correct in this variant; MakeHeap is refuted by a concrete slice"
  },
  {
   "property": "C07",
   "status": "proved",
   "theorems": [
    "C07_stack_lifo"
   ],
   "note": "complete"
  },
  {
   "property": "C08",
   "status": "partial",
   "theorems": [
    "C08_queue_fifo_partial",
    "C08_queue_fifo_refuted"
   ],
   "note": "FIFO proved for all histories in which no Push fills the last slot of a moved ring; false otherwise (values are lost), see C57 for the exact behaviour of all histories"
  },
  {
   "property": "C09",
   "status": "partial",
   "theorems": [
    "C09_queue_shrink_partial",
    "C09_queue_shrink_refuted"
   ],
   "note": "content kept when Shrink does nothing or at most one value is queued; in every other reachable state Size changes or the next Push panics; the result is always false"
  },
  {
   "property": "C10",
   "status": "partial",
   "theorems": [
    "C10_deque_partial",
    "C10_deque_refuted"
   ],
   "note": "proved for all histories whose values do not reach around the buffer end when the buffer is replaced; false otherwise, see C58 for the exact behaviour"
  },
  {
   "property": "C11",
   "status": "partial",
   "theorems": [
    "C11_deque_shrink_partial",
    "C11_deque_shrink_refuted"
   ],
   "note": "content kept when not wrapped; scrambled otherwise; the result is always false"
  },
  {
   "property": "C57",
   "status": "proved",
   "theorems": [
    "C57_queue_exact"
   ],
   "note": "complete: all histories"
  },
  {
   "property": "C58",
   "status": "proved",
   "theorems": [
    "C58_deque_exact"
   ],
   "note": "complete: all histories"
  },
  {
   "property": "C12",
   "status": "partial",
   "theorems": [
    "C12_sort_slice_partial",
    "C12_insert_refuted",
    "C12_pop_empty_refuted"
   ],
   "note": "proved for histories without Insert inside the range and without Pop on an empty slice; both of these are refuted, see C59 for the exact behaviour"
  },
  {
   "property": "C13",
   "status": "proved",
   "theorems": [
    "C13_all_is_preorder",
    "C13_forward_visit"
   ],
   "note": "complete"
  },
  {
   "property": "C14",
   "status": "proved",
   "theorems": [
    "C14_backward_visit"
   ],
   "note": "complete"
  },
  {
   "property": "C15",
   "status": "proved",
   "theorems": [
    "C15_visitor_is_cursor"
   ],
   "note": "complete"
  },
  {
   "property": "C59",
   "status": "proved",
   "theorems": [
    "C59_sort_slice_exact",
    "C59_sort_slice_created"
   ],
   "note": "complete"
  },
  {
   "property": "C32",
   "status": "proved",
   "theorems": [
    "C32_get_bits",
    "C32_reassemble"
   ],
   "note": ""
  },
  {
   "property": "C33",
   "status": "proved",
   "theorems": [
    "C33_comma_string"
   ],
   "note": "fmt verbs %d and %03d are modelled as decimal conversion and checked against an independent definition of decimal writing"
  },
  {
   "property": "C34",
   "status": "partial",
   "theorems": [
    "C34_range_partial",
    "C34_range_new_refuted",
    "C34_range_inc_refuted"
   ],
   "note": "the checks are commented out in the code: New, Set, Inc and Dec accept everything; proved only for callers that respect the range themselves"
  },
  {
   "property": "C60",
   "status": "proved",
   "theorems": [
    "C60_range_exact",
    "C60_range_div_mod"
   ],
   "note": ""
  },
  {
   "property": "C35",
   "status": "partial",
   "theorems": [
    "C35_seq_partial",
    "C35_seq_exhausted_refuted",
    "C35_seq_first_refuted"
   ],
   "note": "the range check is commented out in the code: Next never fails; the first value is skipped only when NOUSE_FST is the only usage option"
  },
  {
   "property": "C36",
   "status": "partial",
   "theorems": [
    "C36_is_prime_partial",
    "C36_is_prime_refuted"
   ],
   "note": "the loop bound is the constant 0, so no trial division happens: 25 is reported prime"
  },
  {
   "property": "C37",
   "status": "proved",
   "theorems": [
    "C37_sqrt",
    "C37_sqrt_no_overflow"
   ],
   "note": ""
  },
  {
   "property": "C38",
   "status": "partial",
   "theorems": [
    "C38_rand_range_partial",
    "C38_rand_range_refuted"
   ],
   "note": "full range and bound zero divide by zero"
  },
  {
   "property": "C39",
   "status": "partial",
   "theorems": [
    "C39_period64_partial",
    "C39_lcg_is_rand",
    "C39_period32_refuted"
   ],
   "note": "64-bit generator full period; 32-bit generator has period 2^31 (C65)"
  },
  {
   "property": "C40",
   "status": "proved",
   "theorems": [
    "C40_rand_linearizable",
    "C40_rand_positions",
    "C40_rand_all",
    "C40_rand_distinct"
   ],
   "note": ""
  },
  {
   "property": "C61",
   "status": "proved",
   "theorems": [
    "C61_seq_exact"
   ],
   "note": ""
  },
  {
   "property": "C62",
   "status": "proved",
   "theorems": [
    "C62_is_prime_exact"
   ],
   "note": ""
  },
  {
   "property": "C63",
   "status": "proved",
   "theorems": [
    "C63_prime_table"
   ],
   "note": ""
  },
  {
   "property": "C64",
   "status": "proved",
   "theorems": [
    "C64_rand_range_exact"
   ],
   "note": ""
  },
  {
   "property": "C65",
   "status": "proved",
   "theorems": [
    "C65_period32"
   ],
   "note": ""
  },
  {
   "property": "C16",
   "status": "proved",
   "theorems": [
    "C16_list_history"
   ],
   "note": "Histories may also contain the moves, Sort and list splicing wherever they are regular; the promise is a sequence editor (lwant in ListSpec.v)."
  },
  {
   "property": "C17",
   "status": "proved",
   "theorems": [
    "C17_list_sort"
   ],
   "note": "Length below 2^64, the number of bins."
  },
  {
   "property": "C18",
   "status": "partial",
   "theorems": [
    "C18_list_reverse_partial",
    "C18_list_reverse_refuted"
   ],
   "note": "False for two or more nodes: Reverse keeps only the first node. Proved for lists of at most one node."
  },
  {
   "property": "C19",
   "status": "partial",
   "theorems": [
    "C19_list_moves_partial",
    "C19_list_moves_refuted"
   ],
   "note": "False when the first node is moved to an end, when moving before the first node, and for MoveAfter(first, last). Proved for all other positions."
  },
  {
   "property": "C20",
   "status": "partial",
   "theorems": [
    "C20_push_after_partial",
    "C20_push_after_refuted"
   ],
   "note": "Forward order proved; the back link of the following node is not updated, so backward traversal and Back() are refuted. C67 gives the exact result."
  },
  {
   "property": "C21",
   "status": "partial",
   "theorems": [
    "C21_list_valid_partial",
    "C21_list_valid_refuted",
    "C21_slist_valid_partial",
    "C21_slist_valid_refuted"
   ],
   "note": "Both lists: never true for a foreign node, true for the first node; false for every other member (refuted)."
  },
  {
   "property": "C66",
   "status": "proved",
   "theorems": [
    "C66_list_exact"
   ],
   "note": ""
  },
  {
   "property": "C67",
   "status": "proved",
   "theorems": [
    "C67_push_after_exact"
   ],
   "note": ""
  },
  {
   "property": "C22",
   "status": "proved",
   "theorems": [
    "C22_slist_history"
   ],
   "note": "Histories may also contain splicing, InsertAfter, Clear, Tail, Get and Set; removal and moves of foreign or nil nodes are allowed."
  },
  {
   "property": "C23",
   "status": "partial",
   "theorems": [
    "C23_has_cycle_partial",
    "C23_has_cycle_refuted"
   ],
   "note": "An answer is always right; but HasCycle panics on lists of 2 or 3 nodes (mod 4) and never returns on even cycles. C68 gives the exact verdicts."
  },
  {
   "property": "C24",
   "status": "partial",
   "theorems": [
    "C24_slist_size_partial",
    "C24_slist_size_refuted"
   ],
   "note": "Right for the empty list only: Len is always 0, the visitor enumerates nothing, Empty is inverted (also on the empty list)."
  },
  {
   "property": "C25",
   "status": "partial",
   "theorems": [
    "C25_slist_sort_partial",
    "C25_slist_sort_refuted"
   ],
   "note": "Sort of two or more nodes always panics (C69); proved for at most one node."
  },
  {
   "property": "C68",
   "status": "proved",
   "theorems": [
    "C68_has_cycle_exact"
   ],
   "note": ""
  },
  {
   "property": "C69",
   "status": "proved",
   "theorems": [
    "C69_slist_exact"
   ],
   "note": ""
  },
  {
   "property": "C70",
   "status": "proved",
   "theorems": [
    "C70_push_front_list"
   ],
   "note": ""
  },
  {
   "property": "C26",
   "status": "proved",
   "theorems": [
    "C26_lfqueue_linearizable",
    "C26_lfqueue_conserves"
   ],
   "note": "Atomic steps of any number of goroutines; Clear, Size and Empty included in the linearizability theorem."
  },
  {
   "property": "C27",
   "status": "partial",
   "theorems": [
    "C27_lfqueue_size_partial",
    "C27_lfqueue_size_refuted"
   ],
   "note": "Holds without Clear and failed pops; each failed pop lowers Size by one and Clear leaves it, so the full claim is refuted."
  },
  {
   "property": "C71",
   "status": "proved",
   "theorems": [
    "C71_lfqueue_size_counts"
   ],
   "note": ""
  },
  {
   "property": "C28",
   "status": "proved",
   "theorems": [
    "C28_ring_linearizable",
    "C28_ring_race_free"
   ],
   "note": "For rings of 2^k slots (Init itself only makes k = 0), fewer than 2^64 - 2^k calls; safety only, no progress claim."
  },
  {
   "property": "C29",
   "status": "partial",
   "theorems": [
    "C29_ring_fifo_partial",
    "C29_ring_refuted"
   ],
   "note": "Init always makes one slot, Push always returns false, a full ring is overwritten and an empty one popped: refuted; first-in first-out within bounds proved for rings of 2^k slots."
  },
  {
   "property": "C72",
   "status": "proved",
   "theorems": [
    "C72_ring_exact",
    "C72_ring_blocking_exact"
   ],
   "note": ""
  },
  {
   "property": "C73",
   "status": "partial",
   "theorems": [
    "C73_ring_size_partial",
    "C73_ring_size_refuted"
   ],
   "note": "Holds for a Size call that is not interrupted; two loads with a push and a pop in between give -1."
  },
  {
   "property": "C30",
   "status": "partial",
   "theorems": [
    "C30_lfdeque_pack",
    "C30_lfdeque_unpack",
    "C30_lfdeque_fifo_partial",
    "C30_lfdeque_refuted"
   ],
   "note": "Packing and the PushBack/PopFront queue proved; PushFront and PopBack panic at the ends of the buffer (prev tests a uint32 for being negative)."
  },
  {
   "property": "C31",
   "status": "partial",
   "theorems": [
    "C31_lfdeque_spsc_partial",
    "C31_lfdeque_refuted"
   ],
   "note": "Holds for one pushing and one popping goroutine; with two pushers or two poppers values are lost and duplicated (witness schedules)."
  },
  {
   "property": "C74",
   "status": "proved",
   "theorems": [
    "C74_lfdeque_exact"
   ],
   "note": ""
  },
  {
   "property": "C41",
   "status": "partial",
   "theorems": [
    "C41_padding_partial",
    "C41_padding_refuted",
    "C41_unpadding_exact"
   ],
   "note": "Lengths right for all positive block sizes; PKCS5/PKCS7 round trip holds iff fewer than 256 bytes are added (all block sizes up to 255); zero padding loses trailing zeros; block sizes below one panic."
  },
  {
   "property": "C42",
   "status": "proved",
   "theorems": [
    "C42_aes_roundtrip"
   ],
   "note": "Block cipher is a parameter assumed invertible on blocks; keys of other lengths give an error."
  },
  {
   "property": "C43",
   "status": "partial",
   "theorems": [
    "C43_tdes_partial",
    "C43_tdes_refuted"
   ],
   "note": "Messages come back without trailing zero bytes, so exact iff the message does not end in zero; the errors are exactly as stated."
  },
  {
   "property": "C75",
   "status": "proved",
   "theorems": [
    "C75_padding_memory"
   ],
   "note": ""
  },
  {
   "property": "C76",
   "status": "proved",
   "theorems": [
    "C76_aes_out_of_order"
   ],
   "note": ""
  },
  {
   "property": "C77",
   "status": "proved",
   "theorems": [
    "C77_tdes_keys"
   ],
   "note": ""
  },
  {
   "property": "C78",
   "status": "proved",
   "theorems": [
    "C78_encode_decode"
   ],
   "note": ""
  },
  {
   "property": "C79",
   "status": "proved",
   "theorems": [
    "C79_hex"
   ],
   "note": ""
  },
  {
   "property": "C80",
   "status": "proved",
   "theorems": [
    "C80_hash_salt"
   ],
   "note": ""
  },
  {
   "property": "C44",
   "status": "proved",
   "theorems": [
    "C44_mapping_bijection"
   ],
   "note": "All histories from the zero value; an Insert before Init panics (nil map) and is part of the statement."
  },
  {
   "property": "C45",
   "status": "proved",
   "theorems": [
    "C45_reged_id_roundtrip",
    "C45_reged_id_any"
   ],
   "note": ""
  },
  {
   "property": "C46",
   "status": "partial",
   "theorems": [
    "C46_error_ids_partial",
    "C46_error_ids_distinct",
    "C46_error_ids_refuted"
   ],
   "note": "Package initialisation overwrites the table after the standard error was registered, so ERRID_STD shows the text of the unknown error; everything else holds for all histories."
  },
  {
   "property": "C81",
   "status": "proved",
   "theorems": [
    "C81_registry_cells",
    "C81_registry_ids_distinct"
   ],
   "note": ""
  },
  {
   "property": "C82",
   "status": "proved",
   "theorems": [
    "C82_finish_is_final"
   ],
   "note": ""
  },
  {
   "property": "C83",
   "status": "partial",
   "theorems": [
    "C83_registry_limits_partial",
    "C83_registry_limits_refuted"
   ],
   "note": "Neither limit is enforced: the error assignments of RangeUint32.verify are commented out. Only the argument check of MaxReg holds."
  },
  {
   "property": "C47",
   "status": "partial",
   "theorems": [
    "C47_copys_partial",
    "C47_copys_refuted"
   ],
   "note": "Holds for sources without WriteTo and at least one destination. A source with WriteTo reaches only the first destination; with no destination a non-empty source is reported as a short write."
  },
  {
   "property": "C48",
   "status": "proved",
   "theorems": [
    "C48_ini_get",
    "C48_ini_ignored",
    "C48_lines",
    "C48_trim"
   ],
   "note": ""
  },
  {
   "property": "C84",
   "status": "proved",
   "theorems": [
    "C84_copys_prefixes"
   ],
   "note": ""
  },
  {
   "property": "C85",
   "status": "partial",
   "theorems": [
    "C85_short_writes_partial",
    "C85_short_writes_refuted"
   ],
   "note": "Only the last destination's count is checked."
  },
  {
   "property": "C86",
   "status": "proved",
   "theorems": [
    "C86_copys_writer_to",
    "C86_writer_to_error"
   ],
   "note": "WriteTo is modelled as in bytes.Buffer, bytes.Reader and strings.Reader."
  },
  {
   "property": "C87",
   "status": "proved",
   "theorems": [
    "C87_copys_ends",
    "C87_copys_empty_buffer",
    "C87_copys_nowhere"
   ],
   "note": ""
  },
  {
   "property": "C88",
   "status": "proved",
   "theorems": [
    "C88_ini_lists"
   ],
   "note": ""
  },
  {
   "property": "C49",
   "status": "proved",
   "theorems": [
    "C49_spin_linearizable",
    "C49_spin_exclusion"
   ],
   "note": "Lock may also give up by its documented panic after 2^24 tries, only while the lock is taken."
  },
  {
   "property": "C50",
   "status": "partial",
   "theorems": [
    "C50_rw_writers_partial",
    "C50_rw_late_reader_partial",
    "C50_rw_exclusion_refuted",
    "C50_rw_release_refuted"
   ],
   "note": "Writers exclude each other and later readers; a reader already past its load gets in beside a writer, and readers never release w. Both are refuted by schedules."
  },
  {
   "property": "C89",
   "status": "proved",
   "theorems": [
    "C89_readers_lock_out_writers"
   ],
   "note": ""
  },
  {
   "property": "C90",
   "status": "proved",
   "theorems": [
    "C90_spin_bounded",
    "C90_rw_bounded"
   ],
   "note": ""
  },
  {
   "property": "C51",
   "status": "partial",
   "theorems": [
    "C51_size_string_partial",
    "C51_size_string_refuted"
   ],
   "note": "Unit bounds for all sizes, half a digit below 2^53; from 2^53 on the float64 conversion can push an exact tie to the wrong side (145*2^46+1)."
  },
  {
   "property": "C91",
   "status": "proved",
   "theorems": [
    "C91_size_text_unique",
    "C91_size_monotone",
    "C91_size_number_range"
   ],
   "note": ""
  },
  {
   "property": "C55",
   "status": "proved",
   "theorems": [
    "C55_days",
    "C55_standard",
    "C55_injective"
   ],
   "note": "time.Duration.String of the standard library is modelled as it is since Go 1.7."
  },
  {
   "property": "C92",
   "status": "partial",
   "theorems": [
    "C92_round_trip_partial",
    "C92_days_unreadable",
    "C92_round_trip_refuted"
   ],
   "note": "true below one day; false from one day on, where String writes the unit d that ParseDuration does not know. The shortest int64 is left out: versions of time.ParseDuration differ on it."
  },
  {
   "property": "C53",
   "status": "partial",
   "theorems": [
    "C53_split_join_partial",
    "C53_split_join_refuted"
   ],
   "note": "true of absolute paths if the root is put back in front of the parts; false as stated: SplitAll drops the root and panics on relative paths (exact behaviour in C93). Unix paths."
  },
  {
   "property": "C93",
   "status": "proved",
   "theorems": [
    "C93_split_all_exact"
   ],
   "note": ""
  },
  {
   "property": "C94",
   "status": "proved",
   "theorems": [
    "C94_same_place",
    "C94_unique",
    "C94_canonical"
   ],
   "note": "filepath.Clean is modelled on elements; symbolic links are not considered."
  },
  {
   "property": "C95",
   "status": "proved",
   "theorems": [
    "C95_joins"
   ],
   "note": ""
  },
  {
   "property": "C96",
   "status": "partial",
   "theorems": [
    "C96_new_name_partial",
    "C96_methods_partial",
    "C96_dir",
    "C96_absolute_name",
    "C96_new_name_refuted"
   ],
   "note": "true of relative new names; an absolute new name is taken inside the directory of the file, since the test for a volume name is always true on Unix."
  },
  {
   "property": "C97",
   "status": "partial",
   "theorems": [
    "C97_relate_abs_partial",
    "C97_relate_rel_partial",
    "C97_relate_ups_partial",
    "C97_relate_lost",
    "C97_relate_mixed",
    "C97_relate_refuted"
   ],
   "note": "true of two absolute paths, and of two relative ones if the root does not go up further than the path; otherwise the error is dropped and the answer is '.'."
  },
  {
   "property": "C98",
   "status": "partial",
   "theorems": [
    "C98_move_partial",
    "C98_move_doubles",
    "C98_move_refuted"
   ],
   "note": "Move relates the new name to the directory and calls Rename, which relates it again."
  },
  {
   "property": "C52",
   "status": "partial",
   "theorems": [
    "C52_collect_partial",
    "C52_deep_files_partial",
    "C52_leaf_dirs_partial",
    "C52_paths_lead",
    "C52_sub_lists_partial",
    "C52_error_refuted"
   ],
   "note": "Exact result proved for every tree and option set. Missing: a directory that cannot be read is never reported as an error (refuted)."
  },
  {
   "property": "C54",
   "status": "proved",
   "theorems": [
    "C54_fingerprint_order",
    "C54_hash_order",
    "C54_sort_exists",
    "C54_readable_has_hash",
    "C54_unreadable"
   ],
   "note": "For Fingerprint and for Hash with every method but NONE (whose value is a counter); names and order may differ."
  },
  {
   "property": "C99",
   "status": "proved",
   "theorems": [
    "C99_statistic",
    "C99_same_size"
   ],
   "note": "Sizes are compared modulo 2^64 as uint64 wraps."
  },
  {
   "property": "C100",
   "status": "partial",
   "theorems": [
    "C100_distinguish_partial",
    "C100_distinguish_refuted",
    "C100_hash_refuted"
   ],
   "note": "Proved for trees whose files are equally deep; refuted in general: a directory and a file have the same fingerprint and size, whatever the hash functions."
  },
  {
   "property": "C101",
   "status": "proved",
   "theorems": [
    "C101_less",
    "C101_strict",
    "C101_smaller_first"
   ],
   "note": "The comment that says the larger one comes first is wrong of the code."
  },
  {
   "property": "C102",
   "status": "proved",
   "theorems": [
    "C102_spin_patient",
    "C102_rw_patient",
    "C102_gives_up"
   ],
   "note": ""
  },
  {
   "property": "C103",
   "status": "partial",
   "theorems": [
    "C103_chunks_partial",
    "C103_append_refuted",
    "C103_size_refuted",
    "C103_reset_refuted"
   ],
   "note": "Sum ignores its argument, Size is the number of bytes written, and Reset keeps the size."
  },
  {
   "property": "C104",
   "status": "proved",
   "theorems": [
    "C104_fingerprint_exact"
   ],
   "note": ""
  },
  {
   "property": "C105",
   "status": "proved",
   "theorems": [
    "C105_text_is_sum"
   ],
   "note": ""
  },
  {
   "property": "C106",
   "status": "proved",
   "theorems": [
    "C106_string_hash",
    "C106_injective",
    "C106_unknown"
   ],
   "note": ""
  },
  {
   "property": "C107",
   "status": "partial",
   "theorems": [
    "C107_none_unique_partial",
    "C107_none_race_refuted"
   ],
   "note": "Goroutines can get the same id, since the counter is not synchronized."
  },
  {
   "property": "C108",
   "status": "proved",
   "theorems": [
    "C108_rw_sequential",
    "C108_misuse_damages"
   ],
   "note": ""
  },
  {
   "property": "C109",
   "status": "partial",
   "theorems": [
    "C109_below_partial",
    "C109_has_prefix_exact",
    "C109_has_prefix_refuted"
   ],
   "note": "The comparison is of bytes: /usr/lib64 has the prefix /usr/lib."
  },
  {
   "property": "C110",
   "status": "proved",
   "theorems": [
    "C110_sorted",
    "C110_exact"
   ],
   "note": "insertUnique included in the exact statement with what it loses; size is not reduced to 64 bits"
  },
  {
   "property": "C111",
   "status": "proved",
   "theorems": [
    "C111_find"
   ],
   "note": "also at most one comparison for each entry and one more"
  },
  {
   "property": "C112",
   "status": "partial",
   "theorems": [
    "C112_cost_partial",
    "C112_chain",
    "C112_log_refuted"
   ],
   "note": "only a linear bound holds: rebalence does not balance, ascending keys make a chain"
  },
  {
   "property": "C113",
   "status": "partial",
   "theorems": [
    "C113_neighbours_partial",
    "C113_ends",
    "C113_end_refuted"
   ],
   "note": "prev of End is not the last node unless the first node is the oldest; on an empty tree it panics"
  },
  {
   "property": "C114",
   "status": "partial",
   "theorems": [
    "C114_unique_partial",
    "C114_unique_refuted"
   ],
   "note": "refusal always holds; adding loses the younger entries that follow the predecessor, and the first call panics"
  },
  {
   "property": "C115",
   "status": "partial",
   "theorems": [
    "C115_init_partial",
    "C115_big_first_refuted"
   ],
   "note": "Init discards the order asked for"
  },
  {
   "property": "C116",
   "status": "partial",
   "theorems": [
    "C116_stubs_refuted"
   ],
   "note": "false: all five are stubs that return nil"
  },
  {
   "property": "C117",
   "status": "proved",
   "theorems": [
    "C117_rotations",
    "C117_rotate"
   ],
   "note": "for histories without insertUnique"
  },
  {
   "property": "C118",
   "status": "partial",
   "theorems": [
    "C118_loop_partial",
    "C118_empty_refuted"
   ],
   "note": "false for the empty tree, where Begin is nil"
  },
  {
   "property": "C119",
   "status": "partial",
   "theorems": [
    "C119_tail_partial",
    "C119_tail_refuted"
   ],
   "note": "Proved for all histories of regular calls (not PopBack of a nonempty list, nor removing the last node, nor putting a node behind it with PushAfter/InsertAfter/MoveAfter, nor InsertFront into an empty list, nor MoveBack of the first node); refuted in general."
  },
  {
   "property": "C120",
   "status": "proved",
   "theorems": [
    "C120_tail_exact",
    "C120_pop_back_loses",
    "C120_push_after_loses"
   ],
   "note": ""
  },
  {
   "property": "C121",
   "status": "proved",
   "theorems": [
    "C121_linearizable",
    "C121_exclusion"
   ],
   "note": "The operating system's CreateFile/CloseHandle are modelled as atomic steps over a table of open files; handles are not reused."
  },
  {
   "property": "C122",
   "status": "partial",
   "theorems": [
    "C122_returns_partial",
    "C122_gets_it_partial",
    "C122_wait_refuted"
   ],
   "note": "Proved: with one goroutine per value Init and Unlock (and Lock, if the error is not EACCES) return within four own steps, and a waiting Lock gets a file nobody has within four steps. Refuted: with the Windows error 32 Lock returns the error at once, and with a shared value a waiting Lock blocks the holder's Unlock forever."
  },
  {
   "property": "C123",
   "status": "proved",
   "theorems": [
    "C123_deadlock",
    "C123_no_wait"
   ],
   "note": ""
  },
  {
   "property": "C124",
   "status": "partial",
   "theorems": [
    "C124_rw_partial",
    "C124_rw_refuted"
   ],
   "note": "All bodies of RWMutex are empty: calls return at once (proved) and exclude nobody (refuted)."
  },
  {
   "property": "C125",
   "status": "partial",
   "theorems": [
    "C125_add_child_partial",
    "C125_add_child_refuted"
   ],
   "note": "Proved for AddChild/AddChildNode at indices outside the range and for all other calls. Refuted for indices inside: AddChild(9, 0) on children 1, 2 leaves 3, 2."
  },
  {
   "property": "C126",
   "status": "proved",
   "theorems": [
    "C126_edit_exact"
   ],
   "note": "Pointwise statement of what changes; panics characterised exactly. sort.Sort is any function that returns a sorted permutation."
  },
  {
   "property": "C127",
   "status": "proved",
   "theorems": [
    "C127_all_tree",
    "C127_all_outcome",
    "C127_all_cycle",
    "C127_all_hangs",
    "C127_all_own"
   ],
   "note": "Nontermination in the model (depth beyond the number of nodes) is shown to be nontermination for every depth and to come from a reachable cycle."
  },
  {
   "property": "C128",
   "status": "partial",
   "theorems": [
    "C128_next_partial",
    "C128_visits_partial",
    "C128_prev_refuted",
    "C128_prev_hangs"
   ],
   "note": "Next is total in every reachable state. Prev is total in histories without RemoveChild and AddChildNode; refuted with them (panics after two removals; hangs on a cycle). Prev hangs only if last children go on forever."
  },
  {
   "property": "C129",
   "status": "proved",
   "theorems": [
    "C129_visitor_steady"
   ],
   "note": ""
  },
  {
   "property": "C130",
   "status": "partial",
   "theorems": [
    "C130_growing_partial",
    "C130_removed_refuted"
   ],
   "note": "Appending is proved, RemoveChild refuted: the brother after a removed child is skipped."
  },
  {
   "property": "C131",
   "status": "proved",
   "theorems": [
    "C131_equal_exact"
   ],
   "note": ""
  },
  {
   "property": "C132",
   "status": "partial",
   "theorems": [
    "C132_equal_millionth_partial",
    "C132_equal_millionth_refuted"
   ],
   "note": "false next to the boundary: the constant is rounded below 0.000001, and so is the difference; proved: true implies < 0.000001, and differences up to 0.000001 - 2e-22 are Equal"
  },
  {
   "property": "C133",
   "status": "partial",
   "theorems": [
    "C133_equivalence_partial",
    "C133_equivalence_refuted"
   ],
   "note": "symmetric, and reflexive exactly on finite numbers; not reflexive on infinities and not transitive"
  },
  {
   "property": "C134",
   "status": "proved",
   "theorems": [
    "C134_equal_large"
   ],
   "note": ""
  },
  {
   "property": "C135",
   "status": "proved",
   "theorems": [
    "C135_rand_string",
    "C135_rand_string_shape"
   ],
   "note": "lengths too large for the memory are left out"
  },
  {
   "property": "C136",
   "status": "partial",
   "theorems": [
    "C136_rand_any_partial",
    "C136_rand_any_refuted"
   ],
   "note": "false: AA is never returned; proved: every letter occurs from every seed"
  },
  {
   "property": "C137",
   "status": "proved",
   "theorems": [
    "C137_alternate",
    "C137_period"
   ],
   "note": ""
  },
  {
   "property": "C138",
   "status": "partial",
   "theorems": [
    "C138_rule_partial",
    "C138_rule_never",
    "C138_rule_refuted"
   ],
   "note": "the rule is ignored and GetRule is a stub; proved for rules that ask for (upper case) letters, false for all others"
  },
  {
   "property": "C139",
   "status": "proved",
   "theorems": [
    "C139_rand_concurrent"
   ],
   "note": "one draw from the generator is one step, which C40 justifies"
  },
  {
   "property": "C140",
   "status": "proved",
   "theorems": [
    "C140_strings_and_slices_as_cells"
   ],
   "note": ""
  },
  {
   "property": "C141",
   "status": "proved",
   "theorems": [
    "C141_string_and_slice_share"
   ],
   "note": ""
  },
  {
   "property": "C142",
   "status": "partial",
   "theorems": [
    "C142_strings_do_not_change_partial",
    "C142_strings_do_not_change_refuted"
   ],
   "note": "Proved for strings with no slice in their family; refuted in general: StringBytes exists to change strings."
  },
  {
   "property": "C143",
   "status": "proved",
   "theorems": [
    "C143_append_leaves_the_string"
   ],
   "note": ""
  },
  {
   "property": "C144",
   "status": "partial",
   "theorems": [
    "C144_writeable_tells_partial",
    "C144_string_writeable_tells_partial",
    "C144_writeable_tells_refuted"
   ],
   "note": "Proved if literals lie below firstPointer and everything else above; refuted for other layouts."
  },
  {
   "property": "C145",
   "status": "proved",
   "theorems": [
    "C145_only_literals_kill"
   ],
   "note": ""
  },
  {
   "property": "C146",
   "status": "proved",
   "theorems": [
    "C146_chdir_goes_where_the_path_leads"
   ],
   "note": ""
  },
  {
   "property": "C147",
   "status": "partial",
   "theorems": [
    "C147_work_path_partial",
    "C147_work_path_last",
    "C147_work_path_refuted"
   ],
   "note": "Proved if only fs.Chdir changes the working directory; refuted with os.Chdir. Exact value proved."
  },
  {
   "property": "C148",
   "status": "partial",
   "theorems": [
    "C148_relate_work_path_partial",
    "C148_relative_is_lost",
    "C148_relate_work_path_refuted"
   ],
   "note": "Proved for absolute paths; for relative paths the result is proved to be \".\"."
  },
  {
   "property": "C149",
   "status": "partial",
   "theorems": [
    "C149_go_path_partial",
    "C149_go_path_semicolon",
    "C149_go_path_refuted",
    "C149_relate_go_path"
   ],
   "note": "Proved for one entry; refuted for a colon-separated list; exact behaviour proved."
  },
  {
   "property": "C150",
   "status": "partial",
   "theorems": [
    "C150_concurrent_chdir_partial",
    "C150_was_working_directory",
    "C150_concurrent_chdir_refuted"
   ],
   "note": "Proved for calls that do not overlap; refuted for overlapping calls."
  },
  {
   "property": "C151",
   "status": "partial",
   "theorems": [
    "C151_create_exists_partial",
    "C151_missing",
    "C151_create_exists_refuted"
   ],
   "note": "Proved for paths that can be opened; a missing path is proved never to be created."
  },
  {
   "property": "C152",
   "status": "partial",
   "theorems": [
    "C152_create_keeps_partial",
    "C152_unchanged_or_empty",
    "C152_create_keeps_refuted"
   ],
   "note": "Proved for directories, unwritable files and a collector that is idle; in every case unchanged or empty."
  },
  {
   "property": "C153",
   "status": "partial",
   "theorems": [
    "C153_create_returns_partial",
    "C153_uses_all_descriptors",
    "C153_returns_if_collector_stops",
    "C153_leaves_file_open",
    "C153_create_returns_refuted",
    "C153_descriptors_refuted"
   ],
   "note": "Proved for paths that cannot be opened; exact behaviour for the others."
  },
  {
   "property": "C154",
   "status": "partial",
   "theorems": [
    "C154_new_seeds_partial",
    "C154_new_seeds_exact",
    "C154_new_seeds_refuted"
   ],
   "note": "Proved for equal clock readings; exact condition proved in general."
  },
  {
   "property": "C155",
   "status": "proved",
   "theorems": [
    "C155_rand_seed_bijective"
   ],
   "note": ""
  },
  {
   "property": "C156",
   "status": "proved",
   "theorems": [
    "C156_same_cycle"
   ],
   "note": ""
  },
  {
   "property": "C157",
   "status": "proved",
   "theorems": [
    "C157_low_bits",
    "C157_even_odd"
   ],
   "note": ""
  },
  {
   "property": "C158",
   "status": "proved",
   "theorems": [
    "C158_errors_linearizable",
    "C158_errors_no_panic"
   ],
   "note": "ShowAll is the subject of C159."
  },
  {
   "property": "C159",
   "status": "partial",
   "theorems": [
    "C159_show_all_partial",
    "C159_show_all_exact",
    "C159_show_all_refuted"
   ],
   "note": "Proved if nothing is registered during the call; exact text proved for all schedules."
  },
  {
   "property": "C160",
   "status": "partial",
   "theorems": [
    "C160_std_err_partial",
    "C160_std_err_refuted"
   ],
   "note": "Proved for texts without percent signs."
  },
  {
   "property": "C161",
   "status": "partial",
   "theorems": [
    "C161_factory_partial",
    "C161_factory_exact",
    "C161_factory_refuted"
   ],
   "note": "Proved for histories without AddCreater, which does nothing; results of all histories proved."
  },
  {
   "property": "C162",
   "status": "proved",
   "theorems": [
    "C162_round_trip",
    "C162_gen_returns"
   ],
   "note": "Textbook RSA and the PKCS #1 v1.5 padding are modelled and proved (Fermat's theorem included); PEM, X.509 and key generation are parameters."
  },
  {
   "property": "C163",
   "status": "proved",
   "theorems": [
    "C163_length_limit"
   ],
   "note": ""
  },
  {
   "property": "C164",
   "status": "proved",
   "theorems": [
    "C164_decrypt_exact",
    "C164_decrypt_returns"
   ],
   "note": ""
  },
  {
   "property": "C165",
   "status": "proved",
   "theorems": [
    "C165_sign_verify",
    "C165_sign_default"
   ],
   "note": "Hash functions are parameters."
  },
  {
   "property": "C166",
   "status": "proved",
   "theorems": [
    "C166_verify_sign",
    "C166_no_transfer"
   ],
   "note": ""
  },
  {
   "property": "C167",
   "status": "proved",
   "theorems": [
    "C167_ciphertexts_differ"
   ],
   "note": ""
  },
  {
   "property": "C168",
   "status": "partial",
   "theorems": [
    "C168_new_client_partial",
    "C168_new_server",
    "C168_hash",
    "C168_errors_refuted"
   ],
   "note": "False of the code: NewClient panics (type assertion, line 39) for a public key that is not RSA; Sign and Verify panic for hash functions that are not linked in. Proved: these are the only panics."
  },
  {
   "property": "C169",
   "status": "proved",
   "theorems": [
    "C169_lfqueue_lock_free"
   ],
   "note": "Potential function over the goroutines' program counters: every failed compare-and-swap is charged to a step that moved the head."
  },
  {
   "property": "C170",
   "status": "partial",
   "theorems": [
    "C170_lfqueue_call_partial",
    "C170_lfqueue_solo",
    "C170_lfqueue_wait_free_refuted"
   ],
   "note": "Wait-freedom is false of the code (refuted by a starving push); proved: the bound relative to the completed calls of the others, and the bound when running alone."
  },
  {
   "property": "C171",
   "status": "proved",
   "theorems": [
    "C171_lfdeque_counts"
   ],
   "note": "Holds although values can be lost and duplicated with several pushers or poppers (C31)."
  },
  {
   "property": "C172",
   "status": "proved",
   "theorems": [
    "C172_lfdeque_progress",
    "C172_lfdeque_busy",
    "C172_lfdeque_solo",
    "C172_lfdeque_full_waits"
   ],
   "note": "Potential function as for C169; the sleep of a waiting push is one step."
  },
  {
   "property": "C173",
   "status": "proved",
   "theorems": [
    "C173_bt_me",
    "C173_file_line",
    "C173_readable",
    "C173_line_readable"
   ],
   "note": "The call stack is what package runtime reports; file names and lines are arbitrary, function names contain no closing brace."
  },
  {
   "property": "C174",
   "status": "proved",
   "theorems": [
    "C174_caller"
   ],
   "note": ""
  },
  {
   "property": "C175",
   "status": "partial",
   "theorems": [
    "C175_bts_partial",
    "C175_call_stack_list_partial",
    "C175_bts_refuted"
   ],
   "note": "False of the code: at most 50 frames, and the line of the return address instead of the call (refuted by a call at the end of its line)."
  },
  {
   "property": "C176",
   "status": "proved",
   "theorems": [
    "C176_assert"
   ],
   "note": ""
  },
  {
   "property": "C177",
   "status": "proved",
   "theorems": [
    "C177_encrypt_standard",
    "C177_decrypt_standard",
    "C177_sign_standard",
    "C177_verify_standard"
   ],
   "note": ""
  },
  {
   "property": "C178",
   "status": "proved",
   "theorems": [
    "C178_queue_race_free",
    "C178_queue_accesses"
   ],
   "note": ""
  },
  {
   "property": "C179",
   "status": "proved",
   "theorems": [
    "C179_ring_race_free",
    "C179_ring_accesses"
   ],
   "note": ""
  },
  {
   "property": "C180",
   "status": "proved",
   "theorems": [
    "C180_spin_guards",
    "C180_spin_accesses"
   ],
   "note": ""
  },
  {
   "property": "C181",
   "status": "partial",
   "theorems": [
    "C181_rw_guards_partial",
    "C181_rw_guards_refuted",
    "C181_rw_accesses"
   ],
   "note": "Race free without readers; with a reader the claim is false of the code and refuted by an execution."
  },
  {
   "property": "C182",
   "status": "partial",
   "theorems": [
    "C182_deque_race_free_partial",
    "C182_pushers_refuted",
    "C182_poppers_refuted",
    "C182_deque_accesses"
   ],
   "note": "Race free with one pusher and one popper; with more the claim is false of the code and refuted by executions."
  },
  {
   "property": "C183",
   "status": "partial",
   "theorems": [
    "C183_errors_race_free_partial",
    "C183_errors_race_free_refuted",
    "C183_errors_races",
    "C183_errors_accesses"
   ],
   "note": "Proved without ShowAll; with ShowAll refuted (unlocked reads at errors.go:102 and 104), all races being on g_id_cur_max. The lists of accesses are proved to be those of the steps."
  },
  {
   "property": "C184",
   "status": "proved",
   "theorems": [
    "C184_fine_linearizable",
    "C184_fine_no_panic",
    "C184_fine_no_deadlock",
    "C184_fine_refines"
   ],
   "note": ""
  },
  {
   "property": "C185",
   "status": "proved",
   "theorems": [
    "C185_registry_objects"
   ],
   "note": "Refinement of a list of regers with cells, by induction over the history."
  },
  {
   "property": "C186",
   "status": "partial",
   "theorems": [
    "C186_object_of_id_partial",
    "C186_object_of_id_refuted"
   ],
   "note": "The object reads, names, shows and sets the same record, but Id returns only the low 24 bits of the id; the refutation gives a registry where the returned id panics and where two objects show the same text."
  },
  {
   "property": "C187",
   "status": "partial",
   "theorems": [
    "C187_regable_race_free_partial",
    "C187_regable_race_free_refuted",
    "C187_regable_accesses"
   ],
   "note": "Proved for all calls that leave the registry itself alone (ids, objects, texts); false with concurrent registering. The lists of accesses are proved to be those of the steps."
  },
  {
   "property": "C188",
   "status": "partial",
   "theorems": [
    "C188_regable_linearizable_partial",
    "C188_regable_texts_refuted",
    "C188_regable_registering_refuted"
   ],
   "note": "Proved for all calls that leave the registry alone, texts of regers being free in the values they show (see C190); texts as snapshots and concurrent registering are refuted by executions."
  },
  {
   "property": "C189",
   "status": "proved",
   "theorems": [
    "C189_regable_no_deadlock"
   ],
   "note": ""
  },
  {
   "property": "C190",
   "status": "proved",
   "theorems": [
    "C190_regable_text_values"
   ],
   "note": ""
  },
  {
   "property": "C191",
   "status": "proved",
   "theorems": [
    "C191_conversions_monotone"
   ],
   "note": ""
  },
  {
   "property": "C192",
   "status": "proved",
   "theorems": [
    "C192_whole_units",
    "C192_opposite"
   ],
   "note": ""
  },
  {
   "property": "C193",
   "status": "proved",
   "theorems": [
    "C193_accuracy"
   ],
   "note": ""
  },
  {
   "property": "C194",
   "status": "partial",
   "theorems": [
    "C194_nearest_partial",
    "C194_nearest_refuted",
    "C194_nearest_all_refuted"
   ],
   "note": "Proved for durations shorter than the unit, for whole units, and for days and weeks up to 2^53 nanoseconds; refuted in general for each of the five conversions."
  },
  {
   "property": "C195",
   "status": "proved",
   "theorems": [
    "C195_path_parts"
   ],
   "note": "Base, Dir, Split and Joins of file paths; filepath.Base of Go is modelled on Unix."
  },
  {
   "property": "C196",
   "status": "proved",
   "theorems": [
    "C196_ext"
   ],
   "note": "Ext is determined exactly by the last element."
  },
  {
   "property": "C197",
   "status": "proved",
   "theorems": [
    "C197_split_list"
   ],
   "note": "The list separator of Unix."
  },
  {
   "property": "C198",
   "status": "proved",
   "theorems": [
    "C198_abs"
   ],
   "note": "The working directory is a parameter; os.Getwd is assumed to succeed."
  },
  {
   "property": "C199",
   "status": "partial",
   "theorems": [
    "C199_first_push_partial",
    "C199_first_push_refuted"
   ],
   "note": "Proved for one pusher and one popper; with two pushers the Init of the second empties the deque (refuted)."
  },
  {
   "property": "C200",
   "status": "partial",
   "theorems": [
    "C200_first_push_race_free_partial",
    "C200_first_push_race_free_refuted"
   ],
   "note": "Proved for one pusher and one popper; with two pushers the field d is written and read without order (refuted)."
  },
  {
   "property": "C201",
   "status": "proved",
   "theorems": [
    "C201_rand_lock_free"
   ],
   "note": "for every history and schedule"
  },
  {
   "property": "C202",
   "status": "partial",
   "theorems": [
    "C202_rand_call_partial",
    "C202_rand_solo",
    "C202_seed_wait_free",
    "C202_rand_wait_free_refuted"
   ],
   "note": "Seed and Srand need three steps of their own, a goroutine alone at most four; a call of Rand is delayed at most two steps by each call that returns meanwhile, and can be overtaken for ever (refuted for both generators)"
  },
  {
   "property": "C203",
   "status": "proved",
   "theorems": [
    "C203_ring_progress"
   ],
   "note": "for every history and every schedule in rounds in which all running calls take part"
  },
  {
   "property": "C204",
   "status": "partial",
   "theorems": [
    "C204_ring_stopped_partial",
    "C204_ring_stopped_refuted"
   ],
   "note": "holds for goroutines that stop outside MustPush and MustPop; false for one that stops inside: it has taken a ticket and all later calls wait for it"
  },
  {
   "property": "C205",
   "status": "proved",
   "theorems": [
    "C205_aes_cipher",
    "C205_aes_helper",
    "C205_aes_tables",
    "C205_aes_standard"
   ],
   "note": "No hypothesis on the cipher: AES of FIPS 197 is modelled; its example vectors are checked. Go's implementation by tables or processor instructions is taken to compute this function."
  },
  {
   "property": "C206",
   "status": "proved",
   "theorems": [
    "C206_des_cipher",
    "C206_tdes",
    "C206_encode"
   ],
   "note": "No hypothesis on the cipher: DES of FIPS 46-3 is modelled; published vectors are checked (two of them in the example). That trailing zeros are lost is C43."
  },
  {
   "property": "C207",
   "status": "proved",
   "theorems": [
    "C207_parity",
    "C207_short_key"
   ],
   "note": ""
  },
  {
   "property": "C208",
   "status": "proved",
   "theorems": [
    "C208_tdes_pattern"
   ],
   "note": "For every block cipher; with C206 for DES."
  },
  {
   "property": "C209",
   "status": "proved",
   "theorems": [
    "C209_aes_prefix"
   ],
   "note": "For every block cipher; with C205 for AES."
  },
  {
   "property": "C210",
   "status": "partial",
   "theorems": [
    "C210_match_partial",
    "C210_match_refuted"
   ],
   "note": "Proved for classes without the separator and for ASCII paths or anchored stars; witnesses show that both restrictions are needed."
  },
  {
   "property": "C211",
   "status": "partial",
   "theorems": [
    "C211_bad_pattern_partial",
    "C211_malformed",
    "C211_reported",
    "C211_bad_pattern_refuted"
   ],
   "note": "Termination, no error for well-formed patterns and well-formedness of matching patterns proved; a malformed pattern that is not reported is the witness."
  },
  {
   "property": "C212",
   "status": "partial",
   "theorems": [
    "C212_canonical_partial",
    "C212_no_colon",
    "C212_unique_partial",
    "C212_hidden",
    "C212_place_refuted",
    "C212_idempotent_refuted",
    "C212_unique_refuted"
   ],
   "note": "Proved except for paths without volume that lead below a name like a drive, uniqueness also except for shares; witnesses show that the exceptions are needed."
  },
  {
   "property": "C213",
   "status": "proved",
   "theorems": [
    "C213_string_sys"
   ],
   "note": "For all strings."
  },
  {
   "property": "C214",
   "status": "partial",
   "theorems": [
    "C214_split_partial",
    "C214_relative_panics",
    "C214_joins_partial",
    "C214_split_refuted",
    "C214_joins_refuted"
   ],
   "note": "Exact for all strings: parts of absolute paths and shares; all relative paths panic; Joins loses the root of a drive."
  },
  {
   "property": "C215",
   "status": "partial",
   "theorems": [
    "C215_rename_partial",
    "C215_move_partial",
    "C215_rooted_inside",
    "C215_rename_refuted",
    "C215_move_refuted"
   ],
   "note": "Proved for destinations with volume and for relative ones; rooted destinations without volume and other volumes are the witnesses."
  },
  {
   "property": "C216",
   "status": "partial",
   "theorems": [
    "C216_joins_partial",
    "C216_joins_refuted"
   ],
   "note": "Exact place for all joinable elements; the witness shows that a bare drive is an exception."
  },
  {
   "property": "C217",
   "status": "proved",
   "theorems": [
    "C217_volume_name",
    "C217_dir_base",
    "C217_share",
    "C217_rooted",
    "C217_relative",
    "C217_relative_up",
    "C217_drive_relative",
    "C217_drive_up"
   ],
   "note": "For all strings made into file paths."
  },
  {
   "property": "C218",
   "status": "proved",
   "theorems": [
    "C218_walk"
   ],
   "note": "The list of visits is determined by being sorted and complete."
  },
  {
   "property": "C219",
   "status": "proved",
   "theorems": [
    "C219_statistic"
   ],
   "note": "Extends C99 to trees that cannot be read completely."
  },
  {
   "property": "C220",
   "status": "partial",
   "theorems": [
    "C220_same_file_partial",
    "C220_same_file_refuted"
   ],
   "note": "Proved if no symbolic link is met before the last step upwards; filepath.Clean takes away name/.. also where name is a link or does not exist."
  },
  {
   "property": "C221",
   "status": "partial",
   "theorems": [
    "C221_symlink_exact",
    "C221_symlink_partial",
    "C221_symlink_refuted"
   ],
   "note": "Proved for absolute paths and for names in the working directory; a relative path with a directory becomes the text of a link in that directory and leads elsewhere. C221_symlink_exact: exactly where."
  },
  {
   "property": "C222",
   "status": "proved",
   "theorems": [
    "C222_link"
   ],
   "note": "Of a symbolic link Link names the link itself, as link(2) does on Linux."
  },
  {
   "property": "C223",
   "status": "proved",
   "theorems": [
    "C223_hash_returns",
    "C223_hash_cycle"
   ],
   "note": "Every file and directory is taken to be readable, and file descriptors not to run out."
  },
  {
   "property": "C224",
   "status": "proved",
   "theorems": [
    "C224_returns",
    "C224_links_are_files",
    "C224_tree_exists"
   ],
   "note": "Model over the Unix file system of LinkSpec: os.Open looks through links, Readdir does not. Reading directories never fails here (see C52 for that)."
  },
  {
   "property": "C225",
   "status": "partial",
   "theorems": [
    "C225_paths_partial",
    "C225_paths_refuted"
   ],
   "note": "Proved for paths made by FilePath. False for other texts: CollectSubs(\"/l/..\") with a link /l to a/b opens /a but gives the paths of its entries as \"/b\" and \"/c\"."
  },
  {
   "property": "C226",
   "status": "partial",
   "theorems": [
    "C226_new_partial",
    "C226_new_never",
    "C226_new_refuted"
   ],
   "note": "False of the code: New returns a pointer to the new variable, which never has the type of the sample (proved for all samples). The variable it points to is proved to be as promised."
  },
  {
   "property": "C227",
   "status": "proved",
   "theorems": [
    "C227_same_type",
    "C227_same_kind",
    "C227_kind"
   ],
   "note": "Types as reflect.TypeOf tells them apart; of type literals only kind and text are kept."
  },
  {
   "property": "C228",
   "status": "partial",
   "theorems": [
    "C228_cmpable_partial",
    "C228_nil",
    "C228_cmpable_refuted"
   ],
   "note": "True exactly for the predeclared ordered types but uintptr; false for defined types like type MyInt int."
  },
  {
   "property": "C229",
   "status": "proved",
   "theorems": [
    "C229_bool_int"
   ],
   "note": ""
  },
  {
   "property": "C230",
   "status": "partial",
   "theorems": [
    "C230_rename_partial",
    "C230_rename_refuted"
   ],
   "note": "Proved for files, over rename(2) on the file system of LinkSpec. False for links: /l, a link to a directory, renamed to l/x. For directories see C233."
  },
  {
   "property": "C231",
   "status": "proved",
   "theorems": [
    "C231_walk_links",
    "C231_missing_root"
   ],
   "note": "links of any shape; the file system stays as it is during the walk and everything is readable (for unreadable directories see C218)"
  },
  {
   "property": "C232",
   "status": "partial",
   "theorems": [
    "C232_statistic_partial",
    "C232_statistic_refuted"
   ],
   "note": "proved for every path that does not end at a link; refuted for a path that is a link to a directory, which is counted as one file of the size of the link's text"
  },
  {
   "property": "C233",
   "status": "partial",
   "theorems": [
    "C233_rename_dir_partial",
    "C233_refused",
    "C233_files",
    "C233_rename_dir_refuted"
   ],
   "note": "Proved if the old and the new path do not pass through the directory itself (by a link in it, or from a working directory inside). Refuted otherwise: /a/l/a with a link /a/l to / is renamed, and the returned path names nothing."
  },
  {
   "property": "C234",
   "status": "partial",
   "theorems": [
    "C234_remove_all_partial",
    "C234_file",
    "C234_missing",
    "C234_loop",
    "C234_returns",
    "C234_success_gone",
    "C234_only_removes",
    "C234_remove_all_refuted"
   ],
   "note": "Proved for all paths that do not pass through the directory to be removed. Refuted otherwise: for /a/l/a with the link /a/l to / RemoveAll returns without error and what is in /a/b stays."
  },
  {
   "property": "C235",
   "status": "proved",
   "theorems": [
    "C235_mkdir_all",
    "C235_mkdir"
   ],
   "note": "Over the file system of LinkSpec.v; permissions and other processes are not modelled."
  },
  {
   "property": "C236",
   "status": "partial",
   "theorems": [
    "C236_fingerprint_moved_partial",
    "C236_fingerprint_moved_refuted"
   ],
   "note": "Proved for directories without symbolic links in them (and for paths that do not pass through the directory itself, as in C233). Refuted for directories with links: a relative link in the moved directory leads elsewhere afterwards, and Fingerprint looks through links."
  },
  {
   "property": "C237",
   "status": "partial",
   "theorems": [
    "C237_eval_symlinks_returns",
    "C237_eval_symlinks_no_links",
    "C237_eval_symlinks_partial",
    "C237_eval_symlinks_shallow_partial",
    "C237_eval_symlinks_refuted"
   ],
   "note": "With the Go 1.8 library the last part is false: with /l -> m, /m -> a/b and /a/b/f -> ../x, EvalSymlinks of /l/f gives /x and not /a/x. Proved of file systems where no link has \".\" or \"..\" as an element of its text, and of those where no link leads to another link."
  },
  {
   "property": "C238",
   "status": "proved",
   "theorems": [
    "C238_never_panics",
    "C238_work_path_leads",
    "C238_work_path_leads_again"
   ],
   "note": "The file system and PWD do not change meanwhile; getcwd(2) is a parameter with the promise [proper] of CwdSpec.v."
  },
  {
   "property": "C239",
   "status": "partial",
   "theorems": [
    "C239_relate_work_path_links_partial",
    "C239_relate_work_path_file_partial",
    "C239_relate_elsewhere_partial",
    "C239_relate_work_path_links_refuted"
   ],
   "note": "False when PWD leads to the working directory through a link: C239_relate_work_path_links_refuted. Proved when WorkPath() has no link, in particular whenever PWD does not lead to the working directory."
  },
  {
   "property": "C240",
   "status": "partial",
   "theorems": [
    "C240_chdir_links_partial",
    "C240_chdir_links_refuted"
   ],
   "note": "False for a text with a link before a step upwards: C240_chdir_links_refuted. Proved for all other texts."
  },
  {
   "property": "C241",
   "status": "proved",
   "theorems": [
    "C241_seeded_alone",
    "C241_common_alone",
    "C241_seeded_sequence"
   ],
   "note": "complete for calls one after the other; calls from several goroutines are not covered here"
  },
  {
   "property": "C242",
   "status": "partial",
   "theorems": [
    "C242_relate_windows_partial",
    "C242_ascii_folds",
    "C242_other_volume",
    "C242_relate_windows_refuted",
    "C242_bare_share_refuted",
    "C242_colon_refuted",
    "C242_relate_windows_no_volume_partial",
    "C242_up_refuted",
    "C242_mixed"
   ],
   "note": "missing: other volumes, a bare share as root, names with colons and relative roots that lead up, where the claim is false (refuted); a path with volume against a root without one or the other way round, where the result is proved to be '.'"
  },
  {
   "property": "C243",
   "status": "partial",
   "theorems": [
    "C243_go_path_windows_partial",
    "C243_relate_go_path_windows_partial",
    "C243_go_path_windows_no_volume_partial",
    "C243_relate_go_path_windows_no_volume_partial",
    "C243_go_path_windows_refuted",
    "C243_server_refuted"
   ],
   "note": "missing: a first entry that is a drive alone or begins with two separators and is no share, where the claim is false (refuted), that is empty, or that has colons but no volume"
  },
  {
   "property": "C244",
   "status": "proved",
   "theorems": [
    "C244_ext_windows",
    "C244_share"
   ],
   "note": ""
  },
  {
   "property": "C245",
   "status": "proved",
   "theorems": [
    "C245_split_list_windows",
    "C245_quoted"
   ],
   "note": ""
  },
  {
   "property": "C246",
   "status": "partial",
   "theorems": [
    "C246_below_windows_partial",
    "C246_has_prefix_windows_exact",
    "C246_ascii_lowers",
    "C246_has_prefix_windows_refuted"
   ],
   "note": "missing: that it holds of nothing else, which is false (refuted)"
  },
  {
   "property": "C247",
   "status": "partial",
   "theorems": [
    "C247_relate_work_windows_partial",
    "C247_other_volume",
    "C247_relate_work_windows_refuted"
   ],
   "note": "missing: other volumes, where the claim is false (refuted), names with colons (false as in C242_colon_refuted) and a working directory that is a share without a separator behind it"
  },
  {
   "property": "C248",
   "status": "partial",
   "theorems": [
    "C248_match_windows_partial",
    "C248_star_everything",
    "C248_backslash_nothing",
    "C248_match_windows_refuted"
   ],
   "note": "Proved for ASCII paths or anchored stars; witnesses show that the restriction is needed and where Windows differs from Unix."
  },
  {
   "property": "C249",
   "status": "partial",
   "theorems": [
    "C249_bad_pattern_windows_partial",
    "C249_malformed",
    "C249_reported",
    "C249_bad_pattern_windows_refuted"
   ],
   "note": "Termination, no error for well-formed patterns and well-formedness of matching patterns proved; a malformed pattern that is not reported is the witness."
  },
  {
   "property": "C250",
   "status": "proved",
   "theorems": [
    "C250_split_windows",
    "C250_base_windows"
   ],
   "note": "For all byte strings; the first theorem says exactly what Split returns."
  },
  {
   "property": "C251",
   "status": "proved",
   "theorems": [
    "C251_child",
    "C251_colon_refuted"
   ],
   "note": "For all paths and names without other colons; C251_colon_refuted shows that names with colons have to be left out."
  }
 ]
}
{"id": "C01", "title": "The integer comparators are strict total orders and mirror images", "statement": "CmpIntLesser.F is exactly '<' and CmpIntGreater.F is exactly '>' on ints; each is irreflexive, transitive and total, and each is the other with swapped arguments. CreateByBool(false/true) and CreateByName(\"\"/\"Lesser\"/\"Greater\") select them, and CreateByName panics on every other name; String() gives the name that CreateByName maps back to the same comparator.", "quantifier": "all pairs/triples of int values, all comparator bytes, all name strings", "why_tests_cant": "order axioms quantify over all triples of ints; a test samples finitely many", "anchors": ["stl/functorcmp.gp_int.go: CmpInt.F, CreateByName, CreateByBool, less, great", "stl/gp/functorcmp.gp.go"]}
{"id": "C02", "title": "IntHeap is a priority queue for every history of operations", "statement": "After Init with limitN<=0 and any sequence of Push and Pop calls, Size/Empty report the number of values pushed and not yet popped, Top and Pop return the largest (maxTop) or smallest (!maxTop) value currently held, Pop removes exactly one occurrence of it, and Pop/Top on an empty heap return ok=false. The backing buffer always satisfies CheckHeap.", "quantifier": "all finite sequences of Push/Pop/Top calls with arbitrary int values, both orderings", "why_tests_cant": "the heap shape depends on the whole history; the number of histories is unbounded", "anchors": ["stl/heap.gp_int.go: IntHeap.Init, Push, Pop, Top, PushHeap, PopHeap, adjustUp, adjustDown, Size, Empty"]}
{"id": "C03", "title": "A limited IntHeap keeps exactly the limitN best values ever pushed", "statement": "After Init(capacity, limitN>0, maxTop) and any sequence of Push calls, the heap holds min(limitN, number pushed) values, and they are the limitN smallest (maxTop) or largest (!maxTop) of all values pushed, with multiplicity: every value that was rejected or evicted is no better than every value kept.", "quantifier": "all positive limits, all sequences of pushed values, both orderings", "why_tests_cant": "top-k correctness depends on every prefix of an unbounded input sequence", "anchors": ["stl/heap.gp_int.go: IntHeap.Push, Init, Buffer"]}
{"id": "C04", "title": "SortHeap sorts every slice", "statement": "SortHeap(b) leaves in b a permutation of the original elements, in ascending order when the heap was initialised with maxTop=true and in descending order otherwise, and never panics.", "quantifier": "all slices of ints of any length, both orderings", "why_tests_cant": "sorting correctness over all permutations and lengths", "anchors": ["stl/heap.gp_int.go: IntHeap.SortHeap, MakeHeap, PopHeap, adjustDown"]}
{"id": "C05", "title": "MakeHeap establishes and CheckHeap decides the heap order", "statement": "For every slice, MakeHeap permutes it into a slice accepted by CheckHeap; CheckHeap(b) is true iff no element beats its parent ((i-1)/2), and then b[0] is an extreme element of b.", "quantifier": "all slices of ints, both orderings", "why_tests_cant": "needs every slice length and every arrangement of equal keys", "anchors": ["stl/heap.gp_int.go: IntHeap.MakeHeap, CheckHeap, cmpV, parent, lchild"]}
{"id": "C06", "title": "Heap.Reverse reverses every slice", "statement": "Reverse(b) leaves in b the original elements in reverse order, for every slice, without panicking.", "quantifier": "all slices of ints including the empty one", "why_tests_cant": "index arithmetic differs for odd, even and empty lengths; all lengths must be covered", "anchors": ["stl/heap.gp_int.go: IntHeap.Reverse"]}
{"id": "C07", "title": "IntStack is a LIFO stack for every history", "statement": "For any sequence of Push/Pop/Top/Clear/Init calls the stack returns values in last-in-first-out order; Depth/Empty agree with the number of unpopped values; Pop/Top on empty return ok=false and leave the stack unchanged.", "quantifier": "all finite operation histories", "why_tests_cant": "histories are unbounded", "anchors": ["stl/stack.gp_int.go: IntStack"]}
{"id": "C08", "title": "IntQueue is a FIFO queue for every history", "statement": "For any sequence of Push/Pop calls after Init(bufSize>0), Pop returns values in the order pushed, nothing is lost or invented, and Size/Empty report the number of values pushed and not yet popped.", "quantifier": "all initial buffer sizes and all finite histories of Push/Pop/Front", "why_tests_cant": "wrap-around and growth interact only for particular (head, tail, capacity) combinations reached by particular histories", "anchors": ["stl/queue.gp_int.go: IntQueue.Push, Pop, Front, Size, Empty, Init, newBuf"]}
{"id": "C09", "title": "IntQueue.Shrink keeps the queued values", "statement": "Calling Shrink at any moment never changes the sequence of values later returned by Pop and never makes a later operation panic; it returns true iff the buffer was actually reallocated.", "quantifier": "all reachable queue states", "why_tests_cant": "the harmful states (capacity at least three times the size, at least two queued values) form an infinite family", "anchors": ["stl/queue.gp_int.go: IntQueue.Shrink"]}
{"id": "C10", "title": "IntDeque is a double-ended queue for every history", "statement": "For any sequence of PushFront/PushBack/PopFront/PopBack calls after Init(bufSize>0), the values come out at both ends exactly as from an abstract double-ended sequence; Size/Empty/Front/Back agree with it.", "quantifier": "all initial buffer sizes and all finite operation histories", "why_tests_cant": "growth while the ring is wrapped only happens for particular histories, and all of them must be covered", "anchors": ["stl/deque.gp_int.go: IntDeque.PushFront, PushBack, PopFront, PopBack, Front, Back, Size, next, prev, newBuf"]}
{"id": "C11", "title": "IntDeque.Shrink keeps the stored values", "statement": "Calling Shrink at any moment never changes the abstract sequence held by the deque and returns true iff the buffer was reallocated.", "quantifier": "all reachable deque states", "why_tests_cant": "depends on whether the ring happens to be wrapped at the moment of the call", "anchors": ["stl/deque.gp_int.go: IntDeque.Shrink"]}
{"id": "C12", "title": "IntSortSlice edit operations match list editing", "statement": "Push appends; Pop removes and returns the last element; Remove(idx) deletes exactly position idx and reports ok=false without effect outside the range; Insert(v, idx) with idx inside the range makes v the idx-th element, shifts the rest right and increases Len by one; Insert outside the range appends; Get/MustGet read position idx.", "quantifier": "all slices, all indices (including negative), all capacities of the backing array", "why_tests_cant": "off-by-one and aliasing errors show only at particular index/length/capacity combinations", "anchors": ["stl/sort_slice.gp_int.go: IntSortSlice.Push, Pop, Insert, Remove, Get, MustGet, Len"]}
{"id": "C13", "title": "Tree All() and the forward visitor enumerate every node exactly once in pre-order", "statement": "For every tree, All() lists the root, then each child's subtree from left to right; a fresh Visitor's successive Next calls produce exactly the same nodes in the same order, then Next returns false for ever.", "quantifier": "all finite trees of any shape", "why_tests_cant": "the visitor keeps an explicit stack whose contents depend on the whole shape of the tree", "anchors": ["stl/tree.gp_int.go: IntTreeNode.All, Visitor, IntTreeNodeVisitor.Next, Get", "fs/tree.gp_filehash38b3.go"]}
{"id": "C14", "title": "The backward visitor enumerates pre-order in reverse", "statement": "For every tree a fresh Visitor's successive Prev calls produce exactly the reverse of All(), then Prev returns false for ever.", "quantifier": "all finite trees of any shape", "why_tests_cant": "unbounded tree shapes", "anchors": ["stl/tree.gp_int.go: IntTreeNodeVisitor.Prev, top_right, tail"]}
{"id": "C15", "title": "The tree visitor is a cursor: Next and Prev undo each other", "statement": "While the visitor stands on the k-th node of the pre-order, Next moves it to the (k+1)-th and Prev to the (k-1)-th, whatever interleaving of Next and Prev calls led there; stepping past either end leaves it finished.", "quantifier": "all finite trees and all finite interleavings of Next and Prev", "why_tests_cant": "interleavings of both directions are unbounded", "anchors": ["stl/tree.gp_int.go: IntTreeNodeVisitor.Next, Prev, push, pop"]}
{"id": "C16", "title": "IntList operates as a sequence at both ends and at node handles", "statement": "For every history of PushFront/PushBack/PopFront/PopBack/PushBefore/Remove on nodes of the list, forward traversal yields the abstract sequence obtained by the corresponding list edits, backward traversal yields its reverse, Front/Back are its ends, and node handles stay valid until removed.", "quantifier": "all finite histories and all choices of node handles belonging to the list", "why_tests_cant": "pointer surgery on cyclic links depends on neighbours and on whether the node is the head; histories are unbounded", "anchors": ["stl/list.gp_int.go: IntList.PushFront, PushBack, PopFront, PopBack, InsertBefore, Remove, Visitor, IntListNodeVisitor.Next, Prev"]}
{"id": "C17", "title": "IntList.Sort is a stable sort", "statement": "Sort on any list terminates without panic and leaves the same nodes linked in ascending order of value, equal values keeping their relative order, with consistent forward and backward links.", "quantifier": "all list lengths below 2^63 and all value arrangements", "why_tests_cant": "bottom-up merge sort with in-place node stealing has length-dependent bin structure", "anchors": ["stl/list.gp_int.go: IntList.Sort, mergeSort, merge, InsertBackList, RemoveFront"]}
{"id": "C18", "title": "IntList.Reverse reverses the list", "statement": "Reverse leaves the same nodes in reverse order.", "quantifier": "all lists", "why_tests_cant": "needs all lengths", "anchors": ["stl/list.gp_int.go: IntList.Reverse"]}
{"id": "C19", "title": "IntList node moves preserve the other elements", "statement": "MoveFront, MoveBack, MoveBefore and MoveAfter move exactly the given node to the requested position and keep all other elements and their order.", "quantifier": "all lists, all pairs of nodes of the list, including adjacent nodes and the ends", "why_tests_cant": "failures appear only when the node or mark is the head or cyclically adjacent", "anchors": ["stl/list.gp_int.go: IntList.MoveFront, MoveBack, MoveBefore, MoveAfter"]}
{"id": "C20", "title": "IntList.PushAfter inserts behind the mark", "statement": "PushAfter(v, mark) inserts v directly behind mark; afterwards forward and backward traversal agree with the edited sequence and Back() is the last element.", "quantifier": "all lists and all marks in the list", "why_tests_cant": "backward links matter only to later operations of an unbounded history", "anchors": ["stl/list.gp_int.go: IntList.PushAfter, InsertAfter"]}
{"id": "C21", "title": "IsValidNode decides membership", "statement": "IsValidNode(n) is true iff n is one of the nodes of the list (IntList and IntSList).", "quantifier": "all lists and all nodes", "why_tests_cant": "needs every node position", "anchors": ["stl/list.gp_int.go: IntList.Reachable, IsValidNode", "stl/slist.gp_int.go: IntSList.Reachable, IsValidNode"]}
{"id": "C22", "title": "IntSList front and handle operations match sequence editing", "statement": "For every history of PushFront/PopFront/PushAfter/InsertFront/Remove/MoveFront/MoveAfter/Reverse on nodes of the list, following next from Front() yields the abstract sequence obtained by the corresponding list edits.", "quantifier": "all finite histories and all choices of node handles in the list", "why_tests_cant": "unbounded histories of pointer updates", "anchors": ["stl/slist.gp_int.go: IntSList.PushFront, PopFront, PushAfter, InsertAfter, InsertFront, Remove, MoveFront, MoveAfter, Reverse, Tail"]}
{"id": "C23", "title": "IntSList.HasCycle decides whether a chain is cyclic", "statement": "HasCycle(head) terminates without panic and returns true iff the chain of next pointers from head is eventually periodic.", "quantifier": "all finite heaps of nodes: all acyclic chain lengths, all lead-in lengths and cycle lengths", "why_tests_cant": "verdicts depend on residues of chain and cycle lengths; non-termination cannot be observed by a test", "anchors": ["stl/slist.gp_int.go: IntSList.HasCycle"]}
{"id": "C24", "title": "IntSList reports its size and contents", "statement": "Len() is the number of nodes, Empty() is true iff there are none, and the visitor enumerates the nodes in order.", "quantifier": "all lists", "why_tests_cant": "all lengths", "anchors": ["stl/slist.gp_int.go: IntSList.Len, Empty, Visitor, IntSListNodeVisitor.Next"]}
{"id": "C25", "title": "IntSList.Sort sorts every list", "statement": "Sort terminates without panic and leaves the same nodes in ascending order.", "quantifier": "all lists", "why_tests_cant": "all lengths and arrangements", "anchors": ["stl/slist.gp_int.go: IntSList.Sort, mergeSort, merge"]}
{"id": "C26", "title": "Lock-free queue pushes and pops are linearizable and conserve values", "statement": "Under every interleaving of any number of goroutines calling PushFront and PopFront, each call takes effect atomically at one instant between its call and return as an operation on one abstract sequence; no value is lost, duplicated or invented; PopFront fails only if the sequence is empty at that instant.", "quantifier": "all numbers of goroutines, all operation mixes, all schedules of their atomic steps", "why_tests_cant": "schedules are exponentially many and unbounded in length", "anchors": ["stl/gp/lfqueue.gp.go: GOGPGlobalNamePrefixLFQueue.PushFront, PopFront"]}
{"id": "C27", "title": "Lock-free queue Size equals the number of stored values when quiescent", "statement": "Whenever no operation is in progress, Size() equals the number of values pushed and not yet popped, after any history including failed pops and Clear.", "quantifier": "all histories", "why_tests_cant": "the drift depends on failed pops anywhere in an unbounded history", "anchors": ["stl/gp/lfqueue.gp.go: Size, Clear, PopFront"]}
{"id": "C28", "title": "Ring buffer MustPush/MustPop hand every value over exactly once in order", "statement": "With any number of producers calling MustPush and consumers calling MustPop on a ring buffer of any power-of-two capacity, under every schedule, the i-th value admitted is delivered to exactly one consumer, values are delivered in admission order, and no slot is overwritten before it was read.", "quantifier": "all capacities 2^k, all numbers of producers and consumers, all schedules (fewer than 2^64 operations)", "why_tests_cant": "races exist only in particular interleavings of index reads, slot accesses and CAS steps", "anchors": ["stl/gp/ringbuffer.gp.go: MustPush, MustPop"]}
{"id": "C29", "title": "Ring buffer Init provides the requested capacity; Push and Pop are bounded-queue operations", "statement": "After Init(n) the buffer has capacity n rounded up to a power of two; Push fails exactly when full and otherwise stores the value; Pop fails exactly when empty and otherwise returns the oldest value.", "quantifier": "all sizes n>=1, all sequential histories", "why_tests_cant": "all sizes and histories", "anchors": ["stl/gp/ringbuffer.gp.go: Init, Push, Pop, Size"]}
{"id": "C30", "title": "Lock-free deque: packed head/tail words round-trip and sequential use is FIFO", "statement": "headTail(makeHeadTail(h,t))=(h,t) for all 32-bit h,t. Used by one goroutine, PushBack/PopFront behave as a bounded FIFO of capacity bufSize-1, PushFront/PopBack as the opposite ends of the same bounded sequence.", "quantifier": "all 32-bit words; all buffer sizes and sequential histories that never push into a full deque", "why_tests_cant": "packing laws range over 2^64 words; histories are unbounded", "anchors": ["stl/gp/lfdeque.gp.go: headTail, makeHeadTail, PushBack, PopFront, PushFront, PopBack, next, prev"]}
{"id": "C31", "title": "Lock-free deque pushes are atomic", "statement": "Under every interleaving of goroutines calling PushBack and PopFront, values popped are exactly values pushed: none is lost or delivered twice.", "quantifier": "all schedules of any number of goroutines", "why_tests_cant": "a lost update needs a specific three-step interleaving", "anchors": ["stl/gp/lfdeque.gp.go: PushBack, PopFront"]}
{"id": "C32", "title": "GetBit, GetByte and GetWord extract exactly the addressed bits", "statement": "For in-range indexes the functions return bit idx, byte idx and 16-bit word idx of the value, and reassembling all bytes (or words) gives the value back; for out-of-range indexes they return an error and never panic.", "quantifier": "all 32-bit values and all 32-bit indexes", "why_tests_cant": "2^32 values times 2^32 indexes", "anchors": ["math/bits_bytes.go"]}
{"id": "C33", "title": "CommaString writes the decimal value with a comma before every group of three digits", "statement": "For every uint64, deleting the commas from CommaString(v) gives the decimal representation of v, and the groups between commas have exactly three digits except the first, which has one to three.", "quantifier": "all 2^64 values", "why_tests_cant": "2^64 values", "anchors": ["math/uint64.go: Uint64.CommaString"]}
{"id": "C34", "title": "Range-limited counters never leave their range", "statement": "A RangeUint32/RangeUint64 created with New(val,min,max) always satisfies min<=Get()<=max; operations that would leave the range return an error and change nothing.", "quantifier": "all (val,min,max) and all operation histories", "why_tests_cant": "all histories and all boundary combinations", "anchors": ["math/range_uint32.go", "math/range_uint64.go"]}
{"id": "C35", "title": "Sequence generator hands out distinct consecutive ids", "statement": "Successive Next calls of a Seq64 created with (min,max,opt) return min, min+1, ... (starting at min+1 when the option says the first value is not used), all distinct, never above max, and fail once the range is exhausted.", "quantifier": "all min<=max, all options, all numbers of calls", "why_tests_cant": "exhaustion behaviour appears after up to 2^64 calls", "anchors": ["math/seq/sequence64.go"]}
{"id": "C36", "title": "IsPrime decides primality", "statement": "IsPrime(n) returns true iff n is prime, for every uint32.", "quantifier": "all 2^32 values", "why_tests_cant": "2^32 values; wrong answers are sparse among small inputs", "anchors": ["math/prime/prime.go: IsPrime"]}
{"id": "C37", "title": "SqrtUint32 computes the nearest integer square root", "statement": "For every uint32 v, SqrtUint32(v) is the integer nearest to the real square root of v, and no intermediate value overflows 32 bits.", "quantifier": "all 2^32 values", "why_tests_cant": "2^32 values", "anchors": ["math/prime/prime.go: SqrtUint32"]}
{"id": "C38", "title": "Random numbers in a range stay in the range", "statement": "RandRange(a,b) returns a value between min(a,b) and max(a,b) inclusive and RandMax(n) a value below n, for every seed, without panicking.", "quantifier": "all seeds and all pairs of bounds, both word sizes", "why_tests_cant": "2^96 or more combinations; the failing bounds are a single pair", "anchors": ["math/rand/rand.gp_32.go", "math/rand/rand.gp_64.go: RandRange, RandMax"]}
{"id": "C39", "title": "The generators have full period", "statement": "Starting from any seed, the generator runs through all 2^32 (respectively 2^64) values before repeating one.", "quantifier": "all seeds; orbits of length 2^32 and 2^64", "why_tests_cant": "cannot enumerate 2^64 outputs", "anchors": ["math/rand/rand.gp_32.go: Rand32.Rand", "math/rand/rand.gp_64.go: Rand64.Rand"]}
{"id": "C40", "title": "Concurrent calls of the generator draw distinct positions of one sequence", "statement": "If any number of goroutines share one generator, then under every schedule the values returned are exactly the successive values of the single-threaded sequence, each delivered to exactly one call.", "quantifier": "all schedules and all numbers of goroutines", "why_tests_cant": "lost-update races need particular interleavings", "anchors": ["math/rand/rand.gp_32.go: Rand", "math/rand/rand.gp_64.go: Rand"]}
{"id": "C41", "title": "Padding followed by unpadding is the identity", "statement": "For every data and block size, ZeroUnPadding(ZeroPadding(d)), PKCS5UnPadding(PKCS5Padding(d)) and PKCS7Unpadding(PKCS7Padding(d)) return d, and the padded length is a multiple of the block size, larger than len(d) by at most one block.", "quantifier": "all byte strings and all block sizes", "why_tests_cant": "fails only for particular trailing bytes or block sizes", "anchors": ["crypto/padding.go", "crypto/aes/aes.go: PKCS7Padding, PKCS7Unpadding"]}
{"id": "C42", "title": "AES helper decrypts what it encrypted, message by message", "statement": "An Encrypter and a Decrypter created with the same key, fed the same sequence of messages in the same order, reproduce every message; encryption never panics for any message.", "quantifier": "all keys of legal length, all sequences of messages, all block ciphers with an inverse", "why_tests_cant": "chaining state carried across calls only matters for sequences of messages", "anchors": ["crypto/aes/aes.go", "crypto/padding.go"]}
{"id": "C43", "title": "Triple-DES ECB helper decrypts what it encrypted", "statement": "TripleDesDecrypt(TripleDesEncrypt(m, k), k) = m for every key string (any length) and every message; decryption of a text whose length is zero or not a multiple of eight returns an error.", "quantifier": "all keys, all messages, all invertible block ciphers", "why_tests_cant": "depends on trailing bytes of the message", "anchors": ["crypto/ecb/ecb.go", "crypto/rsa/code.go"]}
{"id": "C44", "title": "Key-value mapping stays a bijection", "statement": "After any history of Insert/Remove operations, key k maps to v iff v maps back to k; Insert refuses a duplicate key or duplicate value and changes nothing; both directions always have the same size.", "quantifier": "all histories and all keys/values", "why_tests_cant": "two maps must be kept consistent across unbounded histories", "anchors": ["regable/gp/mapping.gp.go"]}
{"id": "C45", "title": "Registered ids pack and unpack losslessly", "statement": "MakeRegedId(reger, real) followed by the id accessors returns (reger, real) for reger<256 and real<2^24, and distinct pairs give distinct ids.", "quantifier": "all in-range pairs", "why_tests_cant": "2^32 pairs", "anchors": ["regable/regable.go"]}
{"id": "C46", "title": "Error registration gives each error its own stable id", "statement": "For every history of Reg calls, ids are distinct, Get(id) returns the text registered under that id, the pre-registered standard error included, and registration fails with an error once the id space is exhausted.", "quantifier": "all registration histories", "why_tests_cant": "package initialisation order and exhaustion after thousands of calls", "anchors": ["errors/errors.go"]}
{"id": "C47", "title": "Copys delivers the whole source to every destination", "statement": "Copys/CopysBuffer copies the complete content of the source to each destination when no reader or writer fails, and reports the number of bytes copied.", "quantifier": "all sources (all chunkings, with or without WriteTo), any number of destinations", "why_tests_cant": "behaviour depends on how the reader splits its data and on optional interfaces", "anchors": ["io/io.go: CopysBuffer, Copys"]}
{"id": "C48", "title": "INI loading: last assignment wins, comments and order of sections are immaterial", "statement": "Load never fails; GetString(section,key,default) returns the trimmed value of the last line assigning to the key in any block headed [section] (a line 'key' without '=' assigns the empty value) and the default iff there is no such line; comment lines, blank lines, text before the first header, blocks headed [] and entries with an empty key have no effect.", "quantifier": "all input texts (including invalid UTF-8), sections, keys and defaults", "why_tests_cant": "all byte strings", "anchors": ["encoding/ini/ini.go: Load, GetString"]}
{"id": "C49", "title": "Spin lock mutual exclusion", "statement": "If every goroutine only unlocks after its own successful Lock, then under every schedule at most one goroutine is between Lock and Unlock; Unlock of an unlocked lock panics.", "quantifier": "all schedules and any number of goroutines", "why_tests_cant": "mutual exclusion violations appear only in particular interleavings", "anchors": ["sync/spinlock.go"]}
{"id": "C50", "title": "Spin read-write lock excludes writers from readers and releases the lock", "statement": "Under every schedule of well-nested Lock/Unlock/RLock/RUnlock calls, a writer inside excludes every other writer and reader; once everybody has left, a new Lock or RLock succeeds.", "quantifier": "all schedules and any number of goroutines", "why_tests_cant": "needs particular interleavings of loads and adds; deadlock is a liveness property", "anchors": ["sync/spinrwlock.go"]}
{"id": "C51", "title": "FileSize.String picks the unit that keeps the number between 1 and 1024", "statement": "For every uint64 size the unit index stays within the table, the printed unit U satisfies U <= size < 1024*U (or is the byte unit), and the printed number differs from size/U by at most half of the last printed digit.", "quantifier": "all 2^64 sizes", "why_tests_cant": "2^64 values", "anchors": ["fs/file_size.go"]}
{"id": "C52", "title": "Directory collection finds exactly the requested entries", "statement": "For every directory tree and every option set, CollectSubs returns exactly the files/directories selected by the options (deep or shallow, leaf directories only or all), in traversal order, and reports an error if the directory cannot be read.", "quantifier": "all directory trees and all option sets", "why_tests_cant": "trees are unbounded", "anchors": ["fs/fs.go: CollectSubs, GetDeepFiles, GetLeafDirs, FsOption"]}
{"id": "C53", "title": "Path splitting and joining are inverse", "statement": "For every cleaned path, joining the parts returned by SplitAll gives the path back.", "quantifier": "all cleaned paths", "why_tests_cant": "unbounded strings", "anchors": ["fs/file_path.go: FilePath.SplitAll, Joins"]}
{"id": "C54", "title": "Directory fingerprints do not depend on enumeration order", "statement": "The hash computed for a directory tree depends only on the multiset of its children's (size, hash) pairs at every level, not on the order in which the operating system lists them.", "quantifier": "all directory trees and all permutations of every directory listing", "why_tests_cant": "listing orders are factorial in number", "anchors": ["fs/file_path.go: FileHash.Less, FilePath.Fingerprint, Hash"]}
{"id": "C55", "title": "Duration.String shows whole days and loses nothing", "statement": "For every duration of at least one day the text is the number of whole days followed by 'd' and the standard rendering of the remainder, which is shorter than one day; shorter durations are rendered in the standard way; distinct durations give distinct texts.", "quantifier": "all 2^64 durations", "why_tests_cant": "2^64 values", "anchors": ["time/duration.go"]}
{"id": "C56", "title": "The heap template without GOGP_ImproveSTL is also a correct heap", "statement": "The alternative adjustDown of the heap template (sink the hole to a leaf, then sift up) gives the same guarantees as the default one: PopHeap removes an extreme element and keeps heap order, MakeHeap establishes heap order on every slice.", "quantifier": "all slices, both orderings", "why_tests_cant": "the defect needs an element that beats both its subtree and its not yet processed ancestors", "anchors": ["stl/gp/heap.gp.go: adjustDown (GOGP_ELSE branch), adjustUp, MakeHeap, PopHeap"]}
{"id": "C57", "title": "Exact behaviour of IntQueue for every history", "statement": "No history of Init/Clear/Push/Pop/Front/Back/Size/Empty panics, and the result of every call is determined by the queued values, the capacity and the number of Pops since the last Init, Clear or growth (modulo the capacity): a Push that takes the last free slot doubles the capacity when that number is 0 and otherwise discards every queued value.", "quantifier": "all initial buffer sizes and all finite histories", "why_tests_cant": "the interesting states need specific interleavings of pushes and pops at every capacity", "anchors": ["stl/queue.gp_int.go: IntQueue"]}
{"id": "C58", "title": "Exact behaviour of IntDeque for every history, including Shrink", "statement": "No history of public calls panics, and the result of every call is determined by the stored values, the capacity and the position of the first value in the buffer: replacing the buffer (growth or Shrink) while the values reach around its end overwrites the first values with the wrapped part and appends as many zeros.", "quantifier": "all initial buffer sizes and all finite histories", "why_tests_cant": "the interesting states need specific interleavings at every capacity", "anchors": ["stl/deque.gp_int.go: IntDeque"]}
{"id": "C59", "title": "Exact behaviour of the sortable slice for every history", "statement": "For every element type, every backing-array capacity and growth policy, and every history of Push/Insert/Remove/Pop/Get/MustGet/Len/Swap, each call panics or returns exactly as list editing says, where Insert inside the range replaces the element (length unchanged) and Pop on an empty slice panics. A slice made by New or Init is empty whatever its capacity, and a negative capacity panics.", "quantifier": "all slices, all capacities, all growth policies, all finite histories, all indices", "why_tests_cant": "append may or may not reallocate, so aliasing mistakes show up only at particular capacities", "anchors": ["stl/sort_slice.gp_int.go"]}
{"id": "C60", "title": "Exact behaviour of the range counters", "statement": "RangeUint32 and RangeUInt64 behave as an unchecked number modulo 2^w with two stored bounds: Set, Inc and Dec always succeed and return the value before the call, Add, Sub and Mul return the result modulo 2^w without changing the counter, the bounds never change and are only used by Reset, ResetR, InRange and InCurrentRange; Div by zero panics, Mod by zero panics only in the 64-bit type.", "quantifier": "all initial values and bounds, all operation histories, both word sizes", "why_tests_cant": "all histories over 2^96 or more initial states; wrap-around needs 2^32 or 2^64 steps", "anchors": ["math/range_uint32.go", "math/range_uint64.go"]}
{"id": "C61", "title": "Exact behaviour of the sequence generator", "statement": "Seq64 is a 64-bit counter: it starts at min, or min+1 when the usage bits of the option are exactly NOUSE_FST, each Next returns the counter and adds one modulo 2^64 without ever failing, Recycle succeeds exactly for values between min and the counter and does not influence later ids.", "quantifier": "all min, max, options and call histories", "why_tests_cant": "wrap-around and exhaustion need up to 2^64 calls", "anchors": ["math/seq/sequence64.go"]}
{"id": "C62", "title": "Exact behaviour of IsPrime", "statement": "IsPrime(n) is true exactly for 2, 3 and the numbers from 5 on that are divisible neither by 2 nor by 3.", "quantifier": "all uint32 values", "why_tests_cant": "2^32 values", "anchors": ["math/prime/prime.go: IsPrime"]}
{"id": "C63", "title": "The prime table is complete and sorted", "statement": "The table g_primes contains exactly the primes up to 65537 in increasing order, each once.", "quantifier": "all table entries and all numbers up to 65537", "why_tests_cant": "a test would need its own trusted list of primes; the claim quantifies over all numbers", "anchors": ["math/prime/prime_data.go"]}
{"id": "C64", "title": "Exact result of RandRange", "statement": "RandRange(a,b) moves the generator one step and returns min(a,b) plus the new state modulo the number of values between the bounds; it panics exactly when the bounds are 0 and the largest word.", "quantifier": "all seeds and pairs of bounds, both word sizes", "why_tests_cant": "2^96 or more combinations", "anchors": ["math/rand/rand.gp_32.go", "math/rand/rand.gp_64.go: RandRange"]}
{"id": "C65", "title": "Exact period of the 32-bit generator", "statement": "From every seed the 32-bit generator repeats after exactly 2^31 calls, and produces exactly the values whose two lowest bits are equal iff those of the seed are.", "quantifier": "all seeds, all numbers of calls", "why_tests_cant": "orbits of 2^31 values for each of 2^32 seeds", "anchors": ["math/rand/rand.gp_32.go: Rand32.Rand"]}
{"id": "C66", "title": "Every IntList call has one exact effect, for all histories over any number of lists", "statement": "For every finite history of calls on any number of lists sharing nodes (pushes, pops, PushBefore, InsertBefore, Remove, moves, Reverse, Sort, InsertBackList, InsertFrontList, Empty, Front, Back, IsValidNode, both traversals), where handles passed belong to the list they are passed to, no call panics or diverges and every observation equals that of a plain sequence editor, including the documented deviations: Reverse keeps only the first node, MoveFront/MoveBack of the first node drops all others, MoveBefore the first node puts the node last, MoveAfter(first, last) is a no-op, IsValidNode recognises only the first node and InsertFrontList rotates the other list.", "quantifier": "all finite histories, all lists, all handles belonging to the list", "why_tests_cant": "deviations appear only at particular positions and persist through unbounded histories of pointer updates", "anchors": ["stl/list.gp_int.go: IntList, IntListNode, IntListNodeVisitor (every method but PushAfter and InsertAfter)"]}
{"id": "C67", "title": "Exactly what IntList.PushAfter leaves behind", "statement": "After PushAfter(v, mark) with mark in the list, forward traversal visits the edited sequence with v right behind mark, but backward traversal still visits the old sequence reversed and Back() is still the old last node: the new node is reachable in one direction only.", "quantifier": "all reachable lists and all marks in the list", "why_tests_cant": "the damage is invisible to forward traversal and depends on the position of the mark", "anchors": ["stl/list.gp_int.go: IntList.PushAfter, InsertAfter, Back, IntListNodeVisitor.Next, Prev"]}
{"id": "C68", "title": "Exact verdict of IntSList.HasCycle by the shape of the chain", "statement": "On a chain that ends after n nodes HasCycle returns false if n mod 4 is 0 or 1 and panics if it is 2 or 3; on a chain that runs into a cycle of c nodes it returns true if c is odd and never returns if c is even. In bounded memory every chain is of one of these kinds.", "quantifier": "all memories, all chains: all lengths, lead-ins and cycle lengths", "why_tests_cant": "residues of unbounded lengths decide, and non-termination cannot be observed", "anchors": ["stl/slist.gp_int.go: IntSList.HasCycle"]}
{"id": "C69", "title": "Every IntSList call has one exact effect, for all histories over any number of lists", "statement": "For every finite history of calls on any number of lists (arguments may be nil or, for Remove, MoveFront and as the moved node of MoveAfter, foreign nodes) no call panics except Sort of two or more nodes, which always does; every observation equals that of a sequence editor with these deviations: Empty is inverted, Len is always 0, the visitor enumerates nothing, IsValidNode recognises only the first node.", "quantifier": "all finite histories, all lists, all handles that the documentation allows", "why_tests_cant": "unbounded histories of pointer updates", "anchors": ["stl/slist.gp_int.go: IntSList, IntSListNode, IntSListNodeVisitor (every method)"]}
{"id": "C70", "title": "PushFrontList shares nodes between the lists", "statement": "After a.PushFrontList(b) with b not empty, both a and b enumerate b's nodes followed by a's old nodes; after a.PushFrontList(a) with a not empty the nodes form a cycle and enumerating a never ends.", "quantifier": "all reachable pairs of lists", "why_tests_cant": "aliasing between objects shows only in later calls", "anchors": ["stl/slist.gp_int.go: IntSList.PushFrontList, IntSListNode.Tail"]}
{"id": "C71", "title": "Lock-free queue Size is an exact counter of calls", "statement": "Under every interleaving, Size behaves as one atomic int32 counter that every PushFront raises by one, every PopFront lowers by one whether or not it found a value, and Clear leaves alone, each at one instant between call and return.", "quantifier": "all numbers of goroutines, all operation mixes, all schedules of their atomic steps", "why_tests_cant": "schedules are exponentially many and unbounded in length, and the counter may lag the contents", "anchors": ["stl/gp/lfqueue.gp.go:52", "stl/gp/lfqueue.gp.go:90", "stl/gp/lfqueue.gp.go:108", "stl/gp/lfqueue.gp.go:115"]}
{"id": "C72", "title": "Exactly what a ring buffer does after Init, used by one goroutine", "statement": "For every n up to 2^62 Init(n) gives one slot (larger n never return); from then on, for every history, Push stores into the slot and returns false, Pop returns the slot with ok even when empty and may drive Size below zero, MustPush blocks for ever iff Size > 0, MustPop blocks for ever iff Size <= 0, Cap is 1 and a second Init changes nothing. On a ring of 2^k slots every history of MustPush, MustPop and queries is exactly that of a bounded queue, a call that has to wait never returning.", "quantifier": "all n, all sequential histories shorter than 2^63", "why_tests_cant": "all sizes and histories; a test cannot observe blocking for ever", "anchors": ["stl/gp/ringbuffer.gp.go:35", "stl/gp/ringbuffer.gp.go:60", "stl/gp/ringbuffer.gp.go:74", "stl/gp/ringbuffer.gp.go:88", "stl/gp/ringbuffer.gp.go:98", "stl/gp/ringbuffer.gp.go:113"]}
{"id": "C73", "title": "Ring buffer Size lies between zero and the capacity", "statement": "While goroutines call MustPush and MustPop, every call of Size returns a number between 0 and Cap(); at rest it is the number of values pushed and not yet popped.", "quantifier": "all capacities 2^k, all schedules", "why_tests_cant": "a wrong answer needs other goroutines between the two loads", "anchors": ["stl/gp/ringbuffer.gp.go:113", "stl/gp/ringbuffer.gp.go:60", "stl/gp/ringbuffer.gp.go:74"]}
{"id": "C74", "title": "Exactly what a lock-free deque does, used by one goroutine", "statement": "For every sequential history of all its calls, starting from the zero value: with n slots (8 if first used by a push or Init with n<=0) and the first value in slot h, PushBack waits for ever iff n-1 values are stored, PushFront panics iff h is 0 and otherwise waits for ever iff n-1 values are stored, PopBack panics iff the values end exactly at the end of the buffer, PopFront and PopBack fail iff empty, Size, Empty and Cap are exact, Clear and Init empty the deque and reset h.", "quantifier": "all sequential histories with int32 arguments", "why_tests_cant": "panics and waits depend on where the values lie in the buffer, which depends on the whole history", "anchors": ["stl/gp/lfdeque.gp.go:59", "stl/gp/lfdeque.gp.go:85", "stl/gp/lfdeque.gp.go:110", "stl/gp/lfdeque.gp.go:135", "stl/gp/lfdeque.gp.go:152", "stl/gp/lfdeque.gp.go:214"]}
{"id": "C75", "title": "Padding writes only into the spare capacity of the caller's slice", "statement": "ZeroPadding and PKCS5Padding never change the bytes the caller can see through the slice passed in, but overwrite the bytes right behind it in the same array with padding when the spare capacity holds all the padding bytes; otherwise the caller's array is untouched.", "quantifier": "all slices, capacities, allocation policies and padding lengths", "why_tests_cant": "visible only through another slice of the same array, and only for particular capacities", "anchors": ["crypto/padding.go: ZeroPadding, PKCS5Padding"]}
{"id": "C76", "title": "AES helper out of step damages exactly the first block", "statement": "If a message of at least one block is encrypted in one chaining state and decrypted in another with the same key, the result has the same length, equals the message from byte 16 on, and equals it entirely iff the two states are equal; afterwards encrypter and decrypter are in the same state again.", "quantifier": "all block ciphers with an inverse, all keys, all pairs of states, all messages of at least 16 bytes", "why_tests_cant": "depends on chaining state carried between calls", "anchors": ["crypto/aes/aes.go: Encrypt, Decrypt"]}
{"id": "C77", "title": "Triple-DES keys are truncated or zero-extended to 24 bytes", "statement": "Two keys whose first 24 bytes agree after filling up with zeros encrypt and decrypt every text identically; no key is refused.", "quantifier": "all keys and texts, all ciphers", "why_tests_cant": "equality of functions on all texts", "anchors": ["crypto/ecb/ecb.go: TripleDesEncrypt, TripleDesDecrypt"]}
{"id": "C78", "title": "Encode gives decodable base64 text", "statement": "For every source Encode/EncodeString returns non-empty text of base64 characters whose length is a multiple of four, and Decode/DecodeString of that text returns the source without its trailing zero bytes.", "quantifier": "all sources, all invertible block ciphers", "why_tests_cant": "combines padding, three cipher passes and base64 over unbounded inputs", "anchors": ["crypto/rsa/code.go: Encode, Decode, EncodeString, DecodeString"]}
{"id": "C79", "title": "Hexadecimal conversion is lossless and rejects exactly malformed text", "statement": "HexStringToBytes(BytesToHexString(b)) = b for all bytes; HexStringToBytes returns a result iff the text has even length and only hexadecimal digits (either case), and converting back gives the text in lower case.", "quantifier": "all byte strings and all texts", "why_tests_cant": "all texts of all lengths", "anchors": ["crypto/rsa/code.go: HexStringToBytes, BytesToHexString"]}
{"id": "C80", "title": "Salted hash collides only where SHA-512 collides", "statement": "Hash (and HashString) of two different sources agree only if the underlying hash function maps two different inputs to the same sum; HashString is the hexadecimal text of Hash.", "quantifier": "all hash functions and all pairs of sources", "why_tests_cant": "a statement about all pairs of inputs", "anchors": ["crypto/rsa/code.go: Hash, HashString"]}
{"id": "C81", "title": "A registry is an array of cells addressed by id", "statement": "With at most 255 regers and fewer than 2^24 registrations: Reg on reger number g (from 1) returns g*2^24 plus the registration's number (from 1), no two registrations share an id, Get/Set/Name with an issued id read and write that registration only (FinishReg does not freeze values), Ids splits the id, Oject(id).Id() reports only the registration number, and any id that was not issued makes Valid, Get, Set, Name and Oject panic rather than report an error.", "quantifier": "all histories of NewUint32Reger, MaxReg, Reg, FinishReg, Valid, Get, Set, Name, Ids, Oject within the limits, all 32-bit ids", "why_tests_cant": "unbounded histories and 2^32 ids; off-by-one index arithmetic in two nested tables", "anchors": ["regable/reg.go", "regable/regable.go"]}
{"id": "C82", "title": "Nothing can be registered after FinishReg", "statement": "In every history, a NewUint32Reger or Reg call after FinishReg panics; no later call reopens registration.", "quantifier": "all histories", "why_tests_cant": "quantifies over every way to reach and leave the locked state", "anchors": ["regable/regable.go: FinishReg, check_lock", "regable/reg.go"]}
{"id": "C83", "title": "Registry limits are enforced", "statement": "A reger accepts at most MaxReg registrations, and no more than 255 regers can be created, so ids never collide.", "quantifier": "all histories", "why_tests_cant": "limits of 2^24 and 255 are not reached in tests", "anchors": ["regable/reg.go: MaxReg, Reg, NewUint32Reger", "math/range_uint32.go"]}
{"id": "C84", "title": "A copy that fails midway leaves consistent prefixes", "statement": "When destinations keep the io.Writer contract but may fail, and the source may fail: every destination holds a prefix of the source, earlier destinations at least as much as later ones and each at least the reported count; a nil error means everything was delivered everywhere; a non-nil error is the source's (then everything before it was delivered) or one that a destination returned; io.ErrShortWrite is never reported.", "quantifier": "all plain sources and chunkings, all buffers with room, all failure patterns, any number (>0) of destinations", "why_tests_cant": "failure can strike at any chunk of any destination", "anchors": ["io/io.go: CopysBuffer"]}
{"id": "C85", "title": "Short writes are detected", "statement": "If Copys returns a nil error then every destination received the whole source, even when a destination breaks the io.Writer contract by taking less than it was given without an error.", "quantifier": "all sources without WriteTo, all destinations", "why_tests_cant": "needs a misbehaving writer at an arbitrary position and chunk", "anchors": ["io/io.go: CopysBuffer"]}
{"id": "C86", "title": "A source with WriteTo goes to the first destination only", "statement": "For a source that implements io.WriterTo by handing over what is left, the first destination receives everything, the others nothing, the error is nil, and the count is the last destination's: the length for one destination, zero for several.", "quantifier": "all contents, all further destinations", "why_tests_cant": "depends on an optional interface of the source", "anchors": ["io/io.go: CopysBuffer 15-22"]}
{"id": "C87", "title": "CopysBuffer returns unless the buffer is empty", "statement": "With a nil or non-empty buffer CopysBuffer returns for every finite source and all destinations; with an empty non-nil buffer and a non-empty plain source it never returns; without destinations a non-empty source gives io.ErrShortWrite.", "quantifier": "all sources, plans and destinations", "why_tests_cant": "non-termination cannot be observed by a test", "anchors": ["io/io.go: CopysBuffer"]}
{"id": "C88", "title": "Sections and Keys list exactly what was loaded", "statement": "After Load(text), Sections returns every header name once and nothing else; Keys(section) returns nil iff there is no such header, otherwise exactly the keys assigned in its blocks, each once.", "quantifier": "all input texts, all map iteration orders", "why_tests_cant": "map order is unspecified and texts are unbounded", "anchors": ["encoding/ini/ini.go: Sections, Keys"]}
{"id": "C89", "title": "Readers lock writers out for good", "statement": "Once an RWSpinLock has been used by readers only, at least one RLock has returned and no call is running, no Lock on it ever returns normally again, whatever well-nested calls follow.", "quantifier": "all schedules before and after, any number of goroutines, fewer than 2^30 RLock calls", "why_tests_cant": "absence of success over all continuations of all executions", "anchors": ["sync/spinrwlock.go"]}
{"id": "C90", "title": "Spin lock calls end", "statement": "Whatever the other goroutines do, a call on a SpinLock returns or panics within 2^24+3 steps of its own goroutine, and a call on an RWSpinLock within 2*2^24+10.", "quantifier": "all schedules, any number of goroutines", "why_tests_cant": "a bound over all interleavings, including unfair ones", "anchors": ["sync/spinlock.go", "sync/spinrwlock.go"]}
{"id": "C91", "title": "Printed sizes can be compared", "statement": "The text of FileSize.String determines the printed number and unit; if one size is not larger than another, the quantity its text shows is not larger either, also across units; the number is at most 1024.000 and, beyond bytes, at least 1.000.", "quantifier": "all pairs of uint64 sizes", "why_tests_cant": "2^128 pairs, with rounding at the unit borders", "anchors": ["fs/file_size.go"]}
{"id": "C92", "title": "ParseDuration reads back what Duration.String writes", "statement": "For every duration d, ParseDuration(d.String()) returns d without an error.", "quantifier": "all 2^64 durations", "why_tests_cant": "2^64 values; a test with hours and minutes passes and says nothing about longer durations", "anchors": ["time/duration.go"]}
{"id": "C93", "title": "SplitAll returns the names of every absolute path and panics on every relative one", "statement": "For every string, SplitAll of its FilePath returns the names from the root on if the string begins with a slash (the single part '/' for the root itself), and panics otherwise.", "quantifier": "all strings (Unix)", "why_tests_cant": "unbounded strings; tests show finitely many paths", "anchors": ["fs/file_path.go: SplitAll"]}
{"id": "C94", "title": "FilePath is a canonical form", "statement": "FilePath(s) leads to the same place as s from every directory; two strings lead to the same places exactly if their FilePaths are equal; a FilePath contains no empty element, no '.', no '..' after a name, and is unchanged by FilePath.", "quantifier": "all pairs of strings and all starting directories, without symbolic links (Unix)", "why_tests_cant": "a relation between infinitely many strings", "anchors": ["fs/file_path.go: FilePath, Set"]}
{"id": "C95", "title": "Joins leads where its elements lead in turn", "statement": "Joins(a, b, …) leads to the place reached by following a, then b from there, and so on; a leading slash of a later element does not go back to the root and leading empty elements are ignored.", "quantifier": "all lists of strings and all starting directories", "why_tests_cant": "unbounded lists", "anchors": ["fs/file_path.go: Joins, Join"]}
{"id": "C96", "title": "New names are taken relative to the directory of the file unless absolute", "statement": "Rename, Link, Symlink and Move take a relative new name from the directory of the file, and an absolute one as it is.", "quantifier": "all paths and new names (Unix)", "why_tests_cant": "unbounded strings; on Windows an absolute name with a drive letter behaves differently", "anchors": ["fs/file_path.go: relateThisPath, Rename, Link, Symlink"]}
{"id": "C97", "title": "Relate leads from the root argument to the path", "statement": "Following p.Relate(root) from root leads to p.", "quantifier": "all pairs of paths and all starting directories", "why_tests_cant": "unbounded strings", "anchors": ["fs/file_path.go: Relate"]}
{"id": "C98", "title": "Move goes to the new name in the directory of the file", "statement": "Move(dest) with a relative dest moves the file to dest taken from the directory of the file.", "quantifier": "all paths and new names (Unix)", "why_tests_cant": "a test in the current directory passes", "anchors": ["fs/file_path.go: Move, Rename, relateThisPath"]}
{"id": "C99", "title": "Statistic counts every entry once", "statement": "Statistic of a directory reports the number of directories (itself included) and files below it and the sum of the file sizes, which is also the size reported by Fingerprint and Hash.", "quantifier": "all readable directory trees", "why_tests_cant": "unbounded trees; tests use one", "anchors": ["fs/file_path.go: Statistic, Fingerprint, Hash"]}
{"id": "C100", "title": "Trees with the same fingerprint have the same content", "statement": "If Fingerprint (or Hash) gives two trees the same hash, then they have the same content up to names and order, unless the hash functions collide.", "quantifier": "all trees, all hash functions", "why_tests_cant": "universal over trees and over hash functions; tests can only try pairs", "anchors": ["fs/file_path.go: Fingerprint, Hash", "hash/finger_print.go: Sum"]}
{"id": "C101", "title": "FileHash order", "statement": "FileHash.Less is a strict order by Size and then Hash in which only values agreeing in both are equivalent; sorted children of a node come smaller first.", "quantifier": "all values; all correct sorts", "why_tests_cant": "order laws are universal over values", "anchors": ["fs/file_path.go: FileHash.Less, SortChildren"]}
{"id": "C102", "title": "Spin locks give up only after 2^24 attempts", "statement": "Lock and RLock panic only after 16777217 failed attempts of the caller, whatever the other goroutines do; with the lock held throughout they do panic then.", "quantifier": "all interleavings of any number of goroutines", "why_tests_cant": "needs 16 million failed attempts under an adversarial schedule", "anchors": ["sync/spinlock.go: Lock", "sync/spinrwlock.go: Lock, RLock"]}
{"id": "C103", "title": "Fingerprint is a hash.Hash", "statement": "A Fingerprint obeys the contract of hash.Hash: Write in any pieces adds to the data, Sum(b) appends the sum to b without changing the state, Size is the number of bytes of the sum, Reset returns to the initial state.", "quantifier": "all histories of calls, all hash functions", "why_tests_cant": "the contract is about every way of cutting the data and every order of calls", "anchors": ["hash/finger_print.go: Write, Sum, Size, Reset, BlockSize"]}
{"id": "C104", "title": "What a Fingerprint computes", "statement": "In every history of calls the sum is six bytes of the size followed by fixed parts of MD5, SHA1 and CRC64 of the data since the last Reset; the size counts since the last Resetsize and survives Reset.", "quantifier": "all histories of calls, all hash functions", "why_tests_cant": "universal over histories and data", "anchors": ["hash/finger_print.go"]}
{"id": "C105", "title": "Fingerprint text and sum agree", "statement": "The text of a Fingerprint without its dashes is the hexadecimal text of Sum(nil).", "quantifier": "all data and sizes", "why_tests_cant": "tests compare a few values", "anchors": ["hash/finger_print.go: String, Sum"]}
{"id": "C106", "title": "StringHash and StringHashL", "statement": "StringHash returns the hexadecimal checksum of the string with the method, StringHashL the length in decimal, a dash and the same; equal texts mean equal checksums (and equal lengths); an unknown method panics.", "quantifier": "all strings, all methods but NONE, all checksum functions", "why_tests_cant": "universal over strings; injectivity is about all pairs", "anchors": ["hash/hash.go: New, StringHash, StringHashL"]}
{"id": "C107", "title": "Method NONE is unique", "statement": "With method NONE every call of StringHash returns another text.", "quantifier": "all sequences of up to 2^32 calls, all interleavings", "why_tests_cant": "tests make few calls, one after the other", "anchors": ["hash/none_hash.go: NewNoneHash, Sum", "hash/hash.go: StringHash"]}
{"id": "C108", "title": "RWSpinLock, one call at a time", "statement": "As long as no two calls overlap, an RWSpinLock behaves exactly as stated, for right and wrong use: Lock takes a free lock, Unlock and RUnlock of a lock that is not held panic but change the reader count.", "quantifier": "all sequences of calls of any number of goroutines", "why_tests_cant": "universal over histories including misuse and counter overflow", "anchors": ["sync/spinrwlock.go", "sync/spinlock.go"]}
{"id": "C109", "title": "HasPrefix of a path", "statement": "HasPrefix says whether the path lies in the given directory.", "quantifier": "all paths", "why_tests_cant": "universal over paths; tests use prefixes that end at a name", "anchors": ["fs/file_path.go: HasPrefix"]}
{"id": "C110", "title": "The red-black tree keeps entries sorted and stable", "statement": "After any insertions with insertEqual the loop from Begin to End meets exactly the inserted entries, sorted by key, equal keys in the order of insertion, and Size counts them; over all histories the tree returns what a list of entries kept in order would return.", "quantifier": "all lists of keys and values, all histories of calls", "why_tests_cant": "universal over shapes of a linked tree in memory", "anchors": ["stl/gp/rbtree.gp.go: insertEqual, insert, Begin, End, next, Size, Find, Clear"]}
{"id": "C111", "title": "Find of the tree", "statement": "Find(k) returns the node with key k that was inserted first, or nil if there is none.", "quantifier": "all insertion histories, all keys", "why_tests_cant": "universal over shapes and duplicates", "anchors": ["stl/gp/rbtree.gp.go: Find"]}
{"id": "C112", "title": "Find of a red-black tree is logarithmic", "statement": "Find makes a number of comparisons at most proportional to the logarithm of the size.", "quantifier": "all histories, all keys", "why_tests_cant": "asymptotic claim over unbounded sizes", "anchors": ["stl/gp/rbtree.gp.go: Find, insert, rebalence"]}
{"id": "C113", "title": "next and prev of tree nodes", "statement": "next goes to the node that follows in order and to End from the last one; prev goes back, and from End to the last one.", "quantifier": "all histories, all nodes", "why_tests_cant": "universal over shapes", "anchors": ["stl/gp/rbtree.gp.go: next, prev, Begin, End"]}
{"id": "C114", "title": "insertUnique", "statement": "insertUnique returns nil and changes nothing if the key is there; otherwise it adds the entry and keeps all others.", "quantifier": "all histories, all keys", "why_tests_cant": "whether entries are lost depends on the order of all insertions before", "anchors": ["stl/gp/rbtree.gp.go: insertUnique, insert, prev"]}
{"id": "C115", "title": "Init of the tree", "statement": "Init makes the tree empty whatever happened before; Init(true) orders bigger keys first.", "quantifier": "all histories before and all insertions after", "why_tests_cant": "universal over histories", "anchors": ["stl/gp/rbtree.gp.go: Init, Clear"]}
{"id": "C116", "title": "Insert, Remove, Erase, LowerBound, UpperBound of the tree", "statement": "The exported methods of the tree do what their names say: after Insert(k) Find(k) finds it, after Remove or Erase it does not, LowerBound and UpperBound return the first entry not below and above the key.", "quantifier": "all keys", "why_tests_cant": "a claim about every key and tree", "anchors": ["stl/gp/rbtree.gp.go: Insert, Remove, Erase, LowerBound, UpperBound"]}
{"id": "C117", "title": "Rotations cannot be noticed", "statement": "Rotations at the root, anywhere in a history, change nothing that the other methods return; a rotation brings the child up and panics if there is none.", "quantifier": "all histories of calls with rotations in between", "why_tests_cant": "universal over shapes and histories", "anchors": ["stl/gp/rbtree.gp.go: rotateLeft, rotateRight"]}
{"id": "C118", "title": "The loop from Begin to End", "statement": "for n := t.Begin(); n != t.End(); n = n.next() meets all entries once and ends, for every tree.", "quantifier": "all histories", "why_tests_cant": "universal over shapes; the empty tree is the corner case", "anchors": ["stl/gp/rbtree.gp.go: Begin, End, next, Empty"]}
{"id": "C119", "title": "List with a tail pointer (template switch GOGP_HasTail)", "statement": "Back is the last node; PushBack appends, PopBack takes the last node away and returns its value, MoveBack moves a node to the end and PushBackList appends the other list and empties it; all other calls do what they do without the switch, in any order of calls.", "quantifier": "all histories of calls on any number of lists, all values", "why_tests_cant": "the tail pointer goes stale only after particular sequences of calls; tests see finitely many", "anchors": ["stl/gp/slist.gp.go: PushBack, PopBack, Back, MoveBack, PushBackList, PushFront, PushFrontList, MoveFront, MoveAfter, Reverse, Clear, Remove"]}
{"id": "C120", "title": "What the tail pointer is when it is not the last node", "statement": "Exactly these calls adjust the tail pointer: PushFront and PushFrontList into a list without one, Clear, Reverse, PushBack, PushBackList, MoveBack, and MoveFront and MoveAfter of the node it points to. So after PopBack of a nonempty list Back still returns the removed node and the next PushBack is lost, and a node put behind the last one with PushAfter is cut off by the next PushBack.", "quantifier": "all histories in which calls that write through the tail pointer find it right, then the fatal calls", "why_tests_cant": "universal over histories", "anchors": ["stl/gp/slist.gp.go: PopBack, Remove, PushAfter, InsertAfter, PushBack"]}
{"id": "C121", "title": "File lock: mutual exclusion", "statement": "In every interleaving of any number of goroutines (of any number of processes), filelock.Mutex values and paths, every Init, Lock and Unlock takes effect at one moment of its call; Lock returns nil only if the value has a path, the file exists and no value has locked that path. Two goroutines with their own values of the same path never both have the lock.", "quantifier": "all schedules, all numbers of goroutines, values and paths, all sets of existing files, every error code the system answers for a locked file", "why_tests_cant": "A test sees a handful of interleavings, and needs several processes to see any.", "anchors": ["sync/filelock/mutex.go:9-53"]}
{"id": "C122", "title": "File lock: Lock waits until the file is unlocked, Unlock returns", "statement": "A Lock of a file that another Mutex has locked does not return before that one unlocks, and then gets it; Unlock and Init always return.", "quantifier": "all schedules; all error codes", "why_tests_cant": "Waiting forever is not observable in a test, and the wait is a minute per round.", "anchors": ["sync/filelock/mutex.go:25-53"]}
{"id": "C123", "title": "File lock: when a value is dead", "statement": "If the system's error for a locked file is EACCES and any goroutine calls Lock on a value that is locked (the holder again, or another goroutine) and gets to its loop, no call on that value ever returns again, in any continuation - not even the holder's Unlock. If the error is another one, Lock never waits and every call of every goroutine can return within six steps.", "quantifier": "all schedules up to that moment with one goroutine per value, all continuations whatsoever", "why_tests_cant": "'never returns' quantifies over all infinite futures.", "anchors": ["sync/filelock/mutex.go:25-53"]}
{"id": "C124", "title": "File RWMutex excludes writers", "statement": "While one goroutine is between Lock and Unlock of a filelock.RWMutex no other is between Lock and Unlock or between RLock and RUnlock.", "quantifier": "all schedules", "why_tests_cant": "A test that sees no overlap proves nothing about the next schedule.", "anchors": ["sync/filelock/rwmutex.go:8-22"]}
{"id": "C125", "title": "Tree: AddChild adds a child", "statement": "AddChild(v, idx) and AddChildNode(n, idx) put the child at position idx (at the end if idx is outside) and keep every other child; RemoveChild takes away exactly the child at idx and returns it; SortChildren orders the children; GetChild and NumChildren answer about them. No call changes another node's children or any node's value.", "quantifier": "all states reachable by calls on any number of nodes and visitors, with shared nodes, nil children and cycles; all indices; all growth policies of append", "why_tests_cant": "The insertion is done by two appends into one array and goes wrong only for indices inside the range and depending on where.", "anchors": ["stl/tree.gp_int.go:51-86", "stl/sort_slice.gp_#inttreenodeb60b.go:71-98"]}
{"id": "C126", "title": "Tree: what the editing calls do, exactly", "statement": "As C125 except that AddChild at an index inside the range replaces the child there, which disappears from the tree. The calls always return; they panic exactly on a nil node, and SortChildren also if there are two or more children and one of them is nil.", "quantifier": "all reachable states, all calls and arguments", "why_tests_cant": "Needs every state of shared, nil and cyclic nodes.", "anchors": ["stl/tree.gp_int.go:44-86", "stl/sort_slice.gp_#inttreenodeb60b.go:71-98"]}
{"id": "C127", "title": "Tree: what All returns, and when it returns", "statement": "If following the children from a node gives a finite tree without nil, All returns its values in preorder. Otherwise All panics (then a nil child can be reached) or recurses forever (then a node that reaches itself can be reached); from a node that reaches such a cycle All never returns a list. If nodes are only added by AddChild, every node is the root of a finite tree of different nodes and All returns.", "quantifier": "all reachable states, all nodes", "why_tests_cant": "Nontermination and the absence of it are not observable by a test.", "anchors": ["stl/tree.gp_int.go:96-102"]}
{"id": "C128", "title": "Tree: a visitor survives changes of the tree", "statement": "Whatever is done to the tree while it is visited, Next and Prev return (true or false) and do not panic or hang.", "quantifier": "all reachable states: any edits between any calls of any number of visitors", "why_tests_cant": "The bad histories need a removal or a cycle between two particular calls.", "anchors": ["stl/tree.gp_int.go:117-217"]}
{"id": "C129", "title": "Tree: a visitor is not disturbed by edits elsewhere", "statement": "While no node under the visitor's root is edited, the visitor is a cursor over the preorder list of the tree - every Next, Prev and Get answers as the cursor does, and always returns - whatever happens to other nodes, also if nodes under the root are hung up elsewhere, and to other visitors.", "quantifier": "all reachable states with a finite tree (shared nodes allowed) under the root; all interleaved histories of other calls", "why_tests_cant": "All interleavings with calls elsewhere cannot be tried.", "anchors": ["stl/tree.gp_int.go:89-93", "stl/tree.gp_int.go:105-225"]}
{"id": "C130", "title": "Tree: nodes added or removed during a visit", "statement": "A forward visit during which the tree is edited still meets every node that is in the tree from then on exactly once: children appended to nodes not met yet, to the current node or to one above it are met, and removing a child that was met does not make others be skipped.", "quantifier": "all reachable states whose tree has no node twice; all histories of Next and AddChild at the end", "why_tests_cant": "The number of edits and the shape of the tree are unbounded.", "anchors": ["stl/tree.gp_int.go:60-63", "stl/tree.gp_int.go:163-189"]}
{"id": "C131", "title": "Equal of two floats, exactly", "statement": "math.Equal(a,b) is true exactly if both numbers are finite and the difference of their values - without rounding - is at most 9444732965739289 / 2^73; NaN and the infinities are Equal to nothing.", "quantifier": "all pairs of float64 values", "why_tests_cant": "2^128 pairs; the boundary depends on the rounding of the subtraction and of the constant.", "anchors": ["math/float.go:7-11"]}
{"id": "C132", "title": "Equal means closer than a millionth", "statement": "math.Equal(a,b) is true exactly if |a-b| < 0.000001.", "quantifier": "all pairs of finite float64 values", "why_tests_cant": "The numbers where it fails are single doubles next to the boundary.", "anchors": ["math/float.go:7-11"]}
{"id": "C133", "title": "Equal of floats is an equivalence", "statement": "math.Equal is reflexive, symmetric and transitive.", "quantifier": "all float64 values", "why_tests_cant": "2^192 triples.", "anchors": ["math/float.go:11"]}
{"id": "C134", "title": "Equal of large floats is ==", "statement": "If |a| > 2^33, math.Equal(a,b) is true exactly if a and b have the same value; 2^33 is the least such bound.", "quantifier": "all float64 values a above 2^33 or below -2^33, all b", "why_tests_cant": "Infinite tolerance classes: cannot enumerate 2^128 pairs.", "anchors": ["math/float.go:7-11"]}
{"id": "C135", "title": "strings.Rand cuts pieces from one sequence of letters", "statement": "Calls of strings.Rand one after the other return consecutive pieces of one sequence of upper case letters fixed by the seed, each of exactly the length asked for, whatever the rules; a negative length panics and nothing else does.", "quantifier": "all seeds and all finite sequences of calls", "why_tests_cant": "Unboundedly many call sequences and 2^32 seeds.", "anchors": ["strings/rand.go:7-9", "strings/rand.go:33-39"]}
{"id": "C136", "title": "strings.Rand can return every string of upper case letters", "statement": "For every string of upper case letters there is a seed from which strings.Rand returns it.", "quantifier": "all strings", "why_tests_cant": "A statement about strings that never appear can not be tested by drawing.", "anchors": ["strings/rand.go:33-39"]}
{"id": "C137", "title": "The letters of strings.Rand alternate", "statement": "In the results of successive calls of strings.Rand, put together, every letter is followed by one of other parity in the alphabet (A,C,E,... against B,D,F,...), so no letter is ever doubled; the sequence repeats after 2^31 letters.", "quantifier": "all seeds, all sequences of calls", "why_tests_cant": "2^31 letters from each of 2^32 seeds.", "anchors": ["strings/rand.go:33-39", "math/rand/rand.gp_32.go:63-98"]}
{"id": "C138", "title": "strings.Rand obeys the rule", "statement": "strings.Rand(rule,length) returns a string with a character of every kind that the rule asks for, and GetRule reports the kinds of characters of a string.", "quantifier": "all seeds, rules and lengths", "why_tests_cant": "All rules and seeds.", "anchors": ["strings/rand.go:14-30", "strings/rand.go:32-44"]}
{"id": "C139", "title": "Concurrent calls of strings.Rand share the sequence", "statement": "If any number of goroutines call strings.Rand, under every schedule each string returned has the length asked for and consists of letters of the sequence at increasing positions, and no position of the sequence is used twice.", "quantifier": "all seeds, numbers of goroutines and schedules", "why_tests_cant": "Unboundedly many interleavings.", "anchors": ["strings/rand.go:7-9", "strings/rand.go:33-39"]}
{"id": "C140", "title": "Strings and slices that share memory behave as names for the same cells", "statement": "For every program that makes byte slices, literals and copies, cuts strings and slices, writes, appends and calls StringBytes and BytesString: it sees exactly what it would see if strings and slices were lists of memory cells, StringBytes(s) named the cells of s with no spare cells behind them, and BytesString(b) the cells of b. It is killed exactly when it would write to a cell of a literal.", "quantifier": "all programs (lists of operations), all contents, all capacities the runtime may choose", "why_tests_cant": "Tests try a few aliasing patterns; the claim covers every interleaving of cuts, appends and writes through any chain of shared values.", "anchors": ["unsafe/string.go:49-59"]}
{"id": "C141", "title": "StringBytes and BytesString share memory with their argument", "statement": "After b = StringBytes(s) or s = BytesString(b), whatever the program does later, the bytes of b are the text of s; and a write b[i] = v through StringBytes(s) that does not kill the program makes s the same text with byte i replaced by v.", "quantifier": "all programs before and after the call, all strings, positions and values", "why_tests_cant": "The equality must hold after every later history of writes and appends through any value, not only after the writes a test makes.", "anchors": ["unsafe/string.go:49-59"]}
{"id": "C142", "title": "The text of a string does not change", "statement": "The text of a string is the same at all times. (True of strings to whose family, i.e. the string they were cut from and its other cuts, StringBytes is never applied and that do not come from BytesString; false otherwise.)", "quantifier": "all programs, all strings", "why_tests_cant": "Immutability is a statement about all later operations of the program.", "anchors": ["unsafe/string.go:48-59"]}
{"id": "C143", "title": "append does not write to a string", "statement": "append(StringBytes(s), vs...) with at least one byte copies: no string and no slice changes, the program is not killed even if s is a literal. append(b, vs...) after s = BytesString(b) leaves s and b alone. (append to a slice cut from StringBytes(s) can change s.)", "quantifier": "all programs, strings, slices, appended bytes and capacities", "why_tests_cant": "Whether append copies depends on the capacity that StringBytes leaves; a test with a given runtime cannot show it for all capacities.", "anchors": ["unsafe/string.go:49-59"]}
{"id": "C144", "title": "Writeable tells whether a write is allowed", "statement": "Bytes.Writeable is true exactly if writing to a byte of the slice succeeds, false exactly if it kills the program. (True if all literals lie below firstPointer and everything else at or above it; false for other layouts, which nothing rules out.)", "quantifier": "all programs, slices, positions, addresses chosen by compiler and runtime", "why_tests_cant": "A test runs with one memory layout; the claim is about every address the linker or the allocator may choose.", "anchors": ["unsafe/string.go:8-42"]}
{"id": "C145", "title": "Only writing to the bytes of a literal kills the program", "statement": "If an operation kills the program, it writes to, or appends in place to, a slice that was obtained from StringBytes of a literal or of a cut of it; and writing any byte of StringBytes of a literal kills it.", "quantifier": "all programs and operations", "why_tests_cant": "The absence of crashes is a claim about all programs that keep away from literals.", "anchors": ["unsafe/string.go:49-54"]}
{"id": "C146", "title": "fs.Chdir goes where the path leads", "statement": "fs.Chdir(p) succeeds exactly if the place that p leads to from the working directory is an existing directory; then that is the working directory and WorkPath() is its absolute path. If it fails, neither changes. Whenever os.Chdir(p) succeeds, fs.Chdir(p) succeeds with the same directory; the converse is false (\"missing/..\" and the empty path).", "quantifier": "all directory trees, all histories of calls, all paths", "why_tests_cant": "Every spelling of a path (dots, repeated slashes, steps above the root) and every tree has to be considered.", "anchors": ["fs/file_line.go:59-66", "fs/file_line.go:93-103", "fs/file_path.go:74-83"]}
{"id": "C147", "title": "WorkPath is the working directory", "statement": "WorkPath() is the working directory of the process. (True if only fs.Chdir changes it; false if os.Chdir is called directly. In every case it is the directory the last successful fs.Chdir went to.)", "quantifier": "all trees, all histories", "why_tests_cant": "A cached value is right or wrong depending on the whole history of the process.", "anchors": ["fs/file_line.go:15-18", "fs/file_line.go:59-71", "fs/file_line.go:93-98"]}
{"id": "C148", "title": "RelateWorkPath gives a path that leads to the same place", "statement": "Followed from the working directory, RelateWorkPath(p) leads to the place that p leads to. (True for absolute p; for every relative p the result is \".\".)", "quantifier": "all trees, histories and paths", "why_tests_cant": "The set of paths is infinite, with arbitrary dots and slashes.", "anchors": ["fs/file_line.go:79-81", "fs/file_path.go:141-144"]}
{"id": "C149", "title": "GoPath is the src directory of the first entry of GOPATH", "statement": "GoPath() is the directory src of the first directory of the list GOPATH; RelateGoPath(p) of an absolute p leads from there to the same place, and is the rest of the path for places below. (On Unix false if GOPATH has several entries: they are separated by colons, the code looks for semicolons.)", "quantifier": "all values of GOPATH, all paths", "why_tests_cant": "Environment and paths range over all strings.", "anchors": ["fs/file_line.go:45-57", "fs/file_line.go:74-76", "fs/file_path.go:135-138"]}
{"id": "C150", "title": "WorkPath is the working directory after concurrent calls of Chdir", "statement": "When no call of fs.Chdir is running, WorkPath() is the working directory, whatever calls ran concurrently before. (True if no two calls overlapped; false otherwise. In every case WorkPath() was the working directory at some time.)", "quantifier": "all schedules of any number of goroutines, all trees and paths", "why_tests_cant": "The wrong outcome needs a particular interleaving of two calls between getwd and the assignment.", "anchors": ["fs/file_line.go:93-98"]}
{"id": "C151", "title": "Create makes the path exist", "statement": "If fs.Create(p) returns nil then p exists. As written this holds only if p could already be opened, and then p is an emptied file; a missing path is never created although nil is returned.", "quantifier": "For all states of the path, permissions, numbers of open files and behaviours of the garbage collector.", "why_tests_cant": "The outcome depends on when finalizers of leaked files run; a test sees one run of the collector.", "anchors": ["fs/fs.go:96-109"]}
{"id": "C152", "title": "Create keeps what is at an existing path", "statement": "fs.Create(p) of an existing path leaves it as it was. As written this holds for directories, for files that may not be written, and if the collector closes no file during the call; otherwise a file may be emptied, even if an error is returned.", "quantifier": "For all states of the path, permissions, numbers of open files and behaviours of the garbage collector.", "why_tests_cant": "Whether the file is emptied depends on the exact moments at which finalizers run.", "anchors": ["fs/fs.go:96-109"]}
{"id": "C153", "title": "Create returns and leaves no files open", "statement": "fs.Create(p) returns and the process has no more files open than before. As written, for a path that can be opened it uses up all descriptors of the process and returns an error if nothing is collected, and recurses forever if the collector is fast enough.", "quantifier": "For all states of the path, limits, numbers of open files and behaviours of the garbage collector.", "why_tests_cant": "Non-termination and exhaustion for every limit can not be observed by a finite test.", "anchors": ["fs/fs.go:96-109"]}
{"id": "C154", "title": "New generators start from different seeds", "statement": "Generators created by NewRand32/NewRand64 start from different seeds. As written this holds for calls that read the same clocks (fewer draws from the global generator in between than its period); for calls at different times the seeds are equal exactly if the sum of clocks and draw happens to be congruent, which is possible with an advancing clock.", "quantifier": "all histories of calls of the package, all clock readings", "why_tests_cant": "a test sees one sequence of clock readings; coincidences of seeds among 2^64 can not be found by trying", "anchors": ["math/rand/rand.go:11-15", "math/rand/rand.gp_64.go:53-81", "math/rand/rand.gp_32.go:53-81"]}
{"id": "C155", "title": "RandSeed loses nothing", "statement": "At any time every seed is the result of RandSeed for exactly one argument, so seeds are as evenly distributed as the numbers drawn.", "quantifier": "all 2^64 (2^32) seeds, all clock readings", "why_tests_cant": "bijectivity over 2^64 values", "anchors": ["math/rand/rand.go:11-15"]}
{"id": "C156", "title": "All generators walk through the same cycle", "statement": "The numbers returned by a 64-bit generator are, from some call on, exactly those of any other 64-bit generator; two 32-bit generators are related like this exactly if in both seeds the two lowest bits are equal or in both different.", "quantifier": "all pairs of seeds, the infinite sequences", "why_tests_cant": "equality of infinite sequences from a place up to 2^64 calls away", "anchors": ["math/rand/rand.gp_64.go:63-76", "math/rand/rand.gp_32.go:63-76"]}
{"id": "C157", "title": "How soon RandMax repeats its low bits", "statement": "If n = 2^k m, the remainders modulo 2^k of successive results of RandMax64(n) repeat exactly every 2^k calls, those of RandMax32(n) every 2^(k-1) calls (k >= 2); for even n the results are even and odd in turn.", "quantifier": "all seeds, bounds and numbers of calls", "why_tests_cant": "exact periods for every bound and seed", "anchors": ["math/rand/rand.gp_64.go:84-98", "math/rand/rand.gp_32.go:84-98"]}
{"id": "C158", "title": "Package errors can be used by many goroutines", "statement": "Under every schedule the calls of Reg, Get, String and Error behave as if made one after the other, each between its call and its return (so ids stay distinct and every id shows its own name), and no call panics.", "quantifier": "all schedules of any number of goroutines and calls", "why_tests_cant": "schedules can not be enumerated by tests", "anchors": ["errors/errors.go:83-136", "errors/with_id.go", "errors/with_id_string.go"]}
{"id": "C159", "title": "ShowAll describes the table at some moment", "statement": "The text of ShowAll is the one that belongs to the names registered at some moment of the call. As written this holds if nothing is registered during the call; otherwise the count is that of one moment and the list that of a later one, so the count may be too small.", "quantifier": "all schedules of any number of goroutines and calls", "why_tests_cant": "needs a registration between two particular reads", "anchors": ["errors/errors.go:100-109"]}
{"id": "C160", "title": "StdErr keeps the text of the error", "statement": "StdErr(e).Error() is the id and name of the standard error followed by the text of e. As written this holds (with the name the id really has) for texts without percent signs, whatever was registered before; a text with percent signs is taken for a format and changed.", "quantifier": "all histories of registrations, all texts", "why_tests_cant": "all texts; the offending character is easily missed", "anchors": ["errors/errors.go:138-140", "errors/with_id_string.go:13-24"]}
{"id": "C161", "title": "A factory creates with the registered Creater", "statement": "Create(t,args) returns what the Creater added last for t and not removed returns for args, nil if there is none. As written AddCreater registers nothing, so every Create returns nil in every history, and no call reports an error.", "quantifier": "all histories, all types, creaters and arguments", "why_tests_cant": "all histories", "anchors": ["factory/factory.go:11-20", "factory/factorys.go:3-24", "factory/factoryi.go:3-24"]}
{"id": "C162", "title": "Decrypt gives back what Encrypt encrypted", "statement": "GenRsaKeys returns a pair of texts from which NewClient and NewServer make a client and a server, and whatever random bytes the client used, Decrypt of the server returns the message that was given to Encrypt of the client.", "quantifier": "for all keys (two distinct primes, inverse exponents), all random bytes, all messages that Encrypt accepts, all encodings of keys that read back what they wrote", "why_tests_cant": "tests try a few messages with one stored key; the claim is number theory over all keys and all random paddings", "anchors": ["crypto/rsa/rsa.go:22-50", "crypto/rsa/rsa.go:63-90", "crypto/rsa/rsa.go:103-139"]}
{"id": "C163", "title": "How long a message Encrypt takes", "statement": "With a key of `bits` bits Encrypt returns ErrMessageTooLong exactly for messages longer than ceil(bits/8)-11 bytes; for the others it returns a ciphertext of ceil(bits/8) bytes unless reading random bytes fails.", "quantifier": "for all keys, random bytes and messages", "why_tests_cant": "the limit depends on the key; tests use one key and short messages", "anchors": ["crypto/rsa/rsa.go:48-50"]}
{"id": "C164", "title": "Decrypt accepts exactly what Encrypt can return", "statement": "Of the byte strings as long as the modulus, Decrypt accepts exactly those that Encrypt of the client with the same key can return for some random bytes, and returns the message they were made from. For everything else it returns ErrDecryption.", "quantifier": "for all keys and all byte strings", "why_tests_cant": "tests can only decrypt what they encrypted, not all of the other byte strings", "anchors": ["crypto/rsa/rsa.go:88-90", "crypto/rsa/rsa.go:48-50"]}
{"id": "C165", "title": "Verify accepts what Sign signed", "statement": "Whenever Sign returns a signature, Verify with the client of the same pair accepts it for the same text and hash function. SignDefault succeeds exactly with keys of at least 745 bits; with smaller keys it returns ErrMessageTooLong and VerifyDefault accepts nothing.", "quantifier": "for all keys, texts and hash functions", "why_tests_cant": "tests sign a few texts with one large key", "anchors": ["crypto/rsa/rsa.go:52-61", "crypto/rsa/rsa.go:92-101"]}
{"id": "C166", "title": "A signature belongs to one digest", "statement": "What Verify accepts is the signature that Sign returns (in releases of the standard library that do not check the range: up to a multiple of the modulus). If one signature is accepted for two texts, possibly with two hash functions, the hash functions are the same and the texts have the same digest.", "quantifier": "for all keys, byte strings, texts and pairs of hash functions", "why_tests_cant": "absence of other accepted signatures cannot be seen by trying some", "anchors": ["crypto/rsa/rsa.go:52-61", "crypto/rsa/rsa.go:92-101"]}
{"id": "C167", "title": "Ciphertexts of different calls differ", "statement": "A ciphertext determines the message and the random bytes that went into it; encrypting the same message again gives another ciphertext unless the same random bytes are drawn.", "quantifier": "for all keys, messages and non-zero random bytes", "why_tests_cant": "injectivity over all messages and random bytes", "anchors": ["crypto/rsa/rsa.go:48-50"]}
{"id": "C168", "title": "Bad keys and hash functions give errors", "statement": "NewClient, NewServer, Sign and Verify report bad arguments by an error and do not panic; MustNewClient and MustNewServer panic exactly when NewClient and NewServer return no key.", "quantifier": "for all texts given as keys, all hash functions", "why_tests_cant": "the panicking inputs (keys of other algorithms, hash functions not linked) are not among the tests", "anchors": ["crypto/rsa/rsa.go:22-42", "crypto/rsa/rsa.go:56-82", "crypto/rsa/rsa.go:96-101"]}
{"id": "C169", "title": "The lock-free queue is lock-free", "statement": "If any number of goroutines call PushFront, PopFront, Clear, Size and Empty of one lock-free queue, then however they are scheduled some call always completes: with P goroutines, any stretch of (3P+5)(r+2P)+1 consecutive steps completes more than r calls. No goroutine that is stopped in the middle of a call can block the others.", "quantifier": "For every number of goroutines, every state reached by any execution, every schedule and every mix of calls.", "why_tests_cant": "A test tries a few schedules chosen by the runtime; a livelock or a call blocked by a stopped goroutine needs a particular interleaving.", "anchors": ["stl/gp/lfqueue.gp.go:52-66", "stl/gp/lfqueue.gp.go:90-106", "stl/gp/lfqueue.gp.go:108-121"]}
{"id": "C170", "title": "Every call of the lock-free queue returns after boundedly many steps of its own", "statement": "A call of the lock-free queue returns after a number of its own steps that is bounded independently of the other goroutines (wait-freedom). Holds when the goroutine runs alone (8 steps from any state); otherwise the bound grows with the number of calls the others complete; an unlucky push can be retried for ever.", "quantifier": "For every reachable state, schedule, goroutine and operation; the refutation for every bound N.", "why_tests_cant": "Starvation needs an adversarial schedule of unbounded length; a test cannot observe that a call never returns.", "anchors": ["stl/gp/lfqueue.gp.go:52-66", "stl/gp/lfqueue.gp.go:90-106"]}
{"id": "C171", "title": "The lock-free deque never panics and keeps its counts with any number of pushers and poppers", "statement": "Whatever goroutines call PushBack, PopFront and Size of one lock-free deque created with a positive size, in any interleaving: no call panics; every value popped was passed to some PushBack; Size is between 0 and Cap-1; and whenever no call is in progress Size equals the number of completed pushes minus the number of successful pops.", "quantifier": "For every capacity below 2^31, every number of goroutines in any roles, and every schedule.", "why_tests_cant": "The counts must survive every interleaving, including those in which a compare-and-swap succeeds after the word has gone round; tests sample few.", "anchors": ["stl/gp/lfdeque.gp.go:110-149", "stl/gp/lfdeque.gp.go:174-182", "stl/gp/lfdeque.gp.go:193-211"]}
{"id": "C172", "title": "Calls of the lock-free deque only ever wait for room", "statement": "Some call always completes unless the steps are spent by pushes that found the deque full: with P goroutines, a stretch of steps in which r calls return is at most (3P+3)(r+2P) steps long plus twice the number of waiting rounds, which is what Busy counts (modulo 2^64). A goroutine running alone returns within 5 steps, whatever the others were stopped in; only a push into a full deque does not return, and never does without a pop.", "quantifier": "For every capacity below 2^31, every reachable state, every number of goroutines and every schedule.", "why_tests_cant": "Freedom from livelock and deadlock is a statement about all schedules of unbounded length.", "anchors": ["stl/gp/lfdeque.gp.go:110-149", "stl/gp/lfdeque.gp.go:184-186"]}
{"id": "C173", "title": "Bt and FileLine describe the place that calls them", "statement": "debug.Bt, BtFileLine and BtFunc return a text with the function, file and line (and the address) of the call of Bt itself, whatever the call stack; the place can be read off the text unambiguously. fs.FileLine, RelateFileLine and Func return file, line and function of their caller, RelateFileLine with the file relative to GoPath.", "quantifier": "For every call stack, every place and address.", "why_tests_cant": "Off-by-one skips in the stack show only for particular call depths; a test calls the function from one place.", "anchors": ["debug/backtrace.go:12-41", "debug/backtrace.go:75-94", "fs/file_line.go:20-43"]}
{"id": "C174", "title": "Caller(depth) describes the depth-th caller", "statement": "debug.Caller(0), CallerFileLine(0) and CallerFunc(0) describe the call of the function that calls them, depth 1 its caller's call, and so on for every depth; the text is empty when the stack is not that deep.", "quantifier": "For every call stack and every depth from 0 to 2^63-4.", "why_tests_cant": "All depths and stacks.", "anchors": ["debug/backtrace.go:44-56", "debug/backtrace.go:75-94"]}
{"id": "C175", "title": "Bts and CallStackList show the call stack", "statement": "Bts and CallStackList(2+k) show every frame of the call stack in order (from the caller on, or without the k innermost), each with function, file and line of its call. What holds: the first 50 frames, with the place the call returns to, which can be on a later line.", "quantifier": "For every call stack.", "why_tests_cant": "Depends on stacks deeper than a test builds and on code positions chosen by the compiler.", "anchors": ["debug/backtrace.go:59-73", "debug/backtrace.go:96-109"]}
{"id": "C176", "title": "Assert panics exactly when its argument is false", "statement": "debug.Assert(b) returns true if b is true and panics otherwise; the text of the panic starts with Assert fail and its third line describes the function that called Assert.", "quantifier": "For every call stack and argument.", "why_tests_cant": "The position in the trace must be right for every stack.", "anchors": ["debug/assert.go:3-8"]}
{"id": "C177", "title": "RSA texts are those of RFC 8017", "statement": "Ciphertexts and signatures of package rsa are exactly those of RSAES-PKCS1-v1_5 and RSASSA-PKCS1-v1_5 (RFC 8017), with the DER identifiers of MD5, SHA-1, SHA-224, SHA-256, SHA-384 and SHA-512: what Encrypt returns decodes by that standard to the message, Decrypt and Verify accept what another implementation made, and Sign makes what another implementation accepts.", "quantifier": "For every key pair, message, text, signature and choice of random bytes.", "why_tests_cant": "A round trip within the package does not show that other programs understand the bytes.", "anchors": ["crypto/rsa/rsa.go:48-61", "crypto/rsa/rsa.go:88-101"]}
{"id": "C178", "title": "LFQueue has no data race", "statement": "Any number of goroutines may call Push, Pop, Clear, Size and Empty of an LFQueue at the same time without a data race in the sense of the Go memory model: two accesses to the same memory of which one writes and one is not atomic are ordered by happens-before.", "quantifier": "For every number of goroutines, every program of calls and every interleaving.", "why_tests_cant": "The race detector sees only the interleavings that happen.", "anchors": ["stl/gp/lfqueue.gp.go:52-121"]}
{"id": "C179", "title": "The ring buffer has no data race", "statement": "Any number of goroutines may call MustPush, MustPop and Size of a ring buffer at the same time without a data race in the sense of the Go memory model, until the 64-bit positions wrap around.", "quantifier": "For every capacity, number of goroutines, program of calls and interleaving.", "why_tests_cant": "The race detector sees only the interleavings that happen.", "anchors": ["stl/gp/ringbuffer.gp.go:60-85", "stl/gp/ringbuffer.gp.go:113-115"]}
{"id": "C180", "title": "A SpinLock guards data", "statement": "A program whose goroutines touch shared data only between Lock and Unlock of a SpinLock has no data race: all earlier critical sections happen before a later one.", "quantifier": "For every number of goroutines, every such program and every interleaving.", "why_tests_cant": "Needs the ordering of memory operations, not just mutual exclusion, over all interleavings.", "anchors": ["sync/spinlock.go:16-35"]}
{"id": "C181", "title": "An RWSpinLock guards data", "statement": "A program whose goroutines write shared data only between Lock and Unlock, and read it only there or between RLock and RUnlock, of an RWSpinLock has no data race. What holds: it has none if RLock is not called. With one reader and one writer it can have one.", "quantifier": "For every number of goroutines, every such program and every interleaving.", "why_tests_cant": "The race needs a writer between two instructions of RLock.", "anchors": ["sync/spinrwlock.go:11-53"]}
{"id": "C182", "title": "LFDeque has no data race", "statement": "Any number of goroutines may call PushBack, PopFront and Size of an LFDeque at the same time without a data race. What holds: it has none if one goroutine pushes and one pops; two that push can race, and so can two that pop with one that pushes.", "quantifier": "For every buffer size below 2^31, number of goroutines, program of calls and interleaving.", "why_tests_cant": "The race detector sees only the interleavings that happen.", "anchors": ["stl/gp/lfdeque.gp.go:110-149", "stl/gp/lfdeque.gp.go:174-182"]}
{"id": "C183", "title": "No data race in package errors", "statement": "Whatever Reg, Get, String and Error calls run concurrently, with whatever capacity append gives the slice of names: of any two accesses by different goroutines to g_id_cur_max, to the header of g_id2err or to an element of its array, of which one writes, one happens before the other in the sense of the Go memory model (sync.RWMutex: Unlock before later Lock and RLock, RUnlock before later Lock). With ShowAll, which reads g_id_cur_max without the lock, this fails, and only for g_id_cur_max.", "quantifier": "all schedules of any number of goroutines, all arguments, all growth policies of append", "why_tests_cant": "the race detector only sees the accesses of executions that happened", "anchors": ["errors/errors.go:53-58", "errors/errors.go:83-128"]}
{"id": "C184", "title": "Calls of package errors are atomic access by access", "statement": "With the critical sections of package errors taken apart into single accesses, concurrent calls of Reg, Get, String and Error behave as if made one after the other, each at a moment between its call and its return; no call panics; whatever happened so far, a call in progress can still return (no deadlock).", "quantifier": "all schedules of any number of goroutines, all arguments, all growth policies of append", "why_tests_cant": "interleavings inside the critical sections cannot be enumerated by tests", "anchors": ["errors/errors.go:83-140", "errors/with_id_string.go:17-24"]}
{"id": "C185", "title": "Objects and texts of a registry are views of its cells", "statement": "For every history of calls on regers (NewUint32Reger, MaxReg, Reg, RegO), ids (Oject, Get, GetNoErr, Set, Name, String, Ids, Valid) and objects (Valid, Get, GetNoErr, Set, Name, Id, String), and of the texts of a reger and of ShowAllRegs, with at most 255 regers and fewer than 2^24 registrations, the results are those of a list of regers with (name, value) cells: RegO returns the object of the cell it added, an object stays the object of that cell whatever is registered later, a value set through an id is read through the object and vice versa, and the texts list every reger and every cell in order.", "quantifier": "all histories of calls, all names, values and 32-bit ids", "why_tests_cant": "A test registers a handful of values; that objects never go stale as the slices grow and that every text always lists exactly the registered cells is a statement about all histories.", "anchors": ["regable/reg.go:83-171", "regable/reg.go:221-283", "regable/reg.go:287-431", "regable/regable.go:43-59", "math/range_uint32.go:125-129"]}
{"id": "C186", "title": "The object of an id leads back to the id", "statement": "In every reachable registry the object returned by Oject for an id returns that id from Id, and Get, Set, Name and String of the object and of the id agree. (The code returns only the number of the record within its reger, so the round trip fails: see the refutation.)", "quantifier": "all reachable registries, all 32-bit ids", "why_tests_cant": "A test with one reger that never uses the id again sees a plausible small number.", "anchors": ["regable/reg.go:277-283", "regable/reg.go:347-365", "regable/reg.go:409-411", "regable/reg.go:139-143"]}
{"id": "C187", "title": "Concurrent calls of package regable have no data race", "statement": "Goroutines that call the methods of ids and objects of package regable and its texts at the same time never touch the same memory in conflicting ways without an order between them in the Go memory model. (With goroutines that register at the same time this is false: Reg writes the slices that Get reads without a lock; see the refutation.)", "quantifier": "all schedules of any number of goroutines, all registries, all arguments", "why_tests_cant": "the race detector only sees the interleavings that happened in a test run", "anchors": ["regable/reg.go:126-145", "regable/reg.go:157-171", "regable/reg.go:189-283", "regable/reg.go:287-365", "regable/reg.go:378-411", "regable/regable.go:43-59"]}
{"id": "C188", "title": "Concurrent calls of package regable are atomic", "statement": "After any history of registrations, concurrent calls of the methods of ids and objects behave as if made one after the other, each between its call and its return. (False for the texts of whole regers, which may mix values of different moments, and for concurrent registering, where two goroutines may get the same id and one value is lost; both are refuted by executions.)", "quantifier": "all histories before, all schedules of any number of goroutines, all arguments", "why_tests_cant": "interleavings cannot be enumerated by tests", "anchors": ["regable/reg.go:126-145", "regable/reg.go:157-171", "regable/reg.go:189-283", "regable/reg.go:287-365", "regable/reg.go:378-411", "regable/regable.go:43-59"]}
{"id": "C189", "title": "Calls of package regable do not deadlock", "statement": "Whatever happened so far, every call of an id, an object or a text in progress can still return, or it is a call that panics when made alone too.", "quantifier": "all histories before, all schedules of any number of goroutines", "why_tests_cant": "a test that does not hang shows nothing about other schedules", "anchors": ["regable/reg.go:126-145", "regable/reg.go:157-171", "regable/reg.go:189-283", "regable/reg.go:287-365", "regable/reg.go:378-411", "regable/regable.go:43-59"]}
{"id": "C190", "title": "Texts of a registry show values that were there", "statement": "A text of an id, of an object, of a reger or of all regers made while other goroutines set values has the form of such a text, and every value it shows was the value of its cell at some moment between call and return.", "quantifier": "all histories before, all schedules of any number of goroutines", "why_tests_cant": "interleavings cannot be enumerated by tests", "anchors": ["regable/reg.go:126-145", "regable/reg.go:157-171", "regable/reg.go:189-283", "regable/reg.go:287-365", "regable/reg.go:378-411", "regable/regable.go:43-59"]}
{"id": "C191", "title": "Longer durations convert to larger numbers", "statement": "For durations d <= d' each of Seconds, Minutes, Hours, Days and Weeks gives float64 values in the same order (possibly equal).", "quantifier": "all pairs of 64-bit durations", "why_tests_cant": "Rounding happens at every one of 2^64 durations, twice or three times per call; a test looks at a few.", "anchors": ["time/duration.go:43-50", "time/duration.go:69-81"]}
{"id": "C192", "title": "Whole units convert exactly", "statement": "Seconds, Minutes, Hours, Days and Weeks of k whole units give exactly the float64 k; and the conversion of -d is that of d with the sign changed.", "quantifier": "all 64-bit durations", "why_tests_cant": "A test looks at a few numbers of units; that no rounding error ever survives is a statement about all of them.", "anchors": ["time/duration.go:43-50", "time/duration.go:69-81"]}
{"id": "C193", "title": "Conversions of durations are accurate to one part in 2^52", "statement": "Seconds, Minutes, Hours, Days and Weeks give a finite float64 that differs from the exact quotient of the duration by the unit by at most that quotient divided by 2^52.", "quantifier": "all 64-bit durations", "why_tests_cant": "Rounding errors depend on all bits of the argument.", "anchors": ["time/duration.go:43-50", "time/duration.go:69-81"]}
{"id": "C194", "title": "Conversions of durations give the nearest float64", "statement": "Seconds, Minutes, Hours, Days and Weeks give a float64 nearest to the exact quotient of the duration by the unit. (False in general, since each of them rounds more than once; see the refutation, which has a witness for each of the five.)", "quantifier": "all 64-bit durations", "why_tests_cant": "The cases in which two roundings differ from one are rare.", "anchors": ["time/duration.go:43-50", "time/duration.go:69-81"]}
{"id": "C195", "title": "A path is put together again from its parts", "statement": "Split cuts the text after its last slash. Joining Dir and Base of a file path gives that file path. A name joined to a file path is the Base of the result, and the file path its Dir. Base of any text is its last element without the slashes after it, \"/\" for slashes only and \".\" for the empty text.", "quantifier": "all texts and all names, on a Unix system", "why_tests_cant": "Root, \".\", paths above the start (\"../..\") and single names all take other branches; a test tries a handful of paths.", "anchors": ["fs/file_path.go:109-111", "fs/file_path.go:161-168", "fs/file_path.go:218-226"]}
{"id": "C196", "title": "Ext is the text from the last full stop of the last element", "statement": "Ext returns the text from the last full stop of the last path element on, with the full stop, and the empty text exactly if that element has none; full stops in directories never count.", "quantifier": "all texts", "why_tests_cant": "The claim is an equivalence over all texts; tests show some extensions.", "anchors": ["fs/file_path.go:114-116"]}
{"id": "C197", "title": "SplitList inverts writing paths with colons", "statement": "SplitList returns the only list (other than one empty element) whose elements contain no colon and which, written with colons between them, gives the text.", "quantifier": "all texts and lists, on a Unix system", "why_tests_cant": "Uniqueness and empty elements at the beginning, in the middle and at the end are claims about all texts.", "anchors": ["fs/file_path.go:104-106"]}
{"id": "C198", "title": "Abs gives the clean rooted path of the same place", "statement": "From a working directory that is a rooted path, Abs returns a clean path that begins with a slash and leads to where the given path leads from the working directory.", "quantifier": "all texts and all rooted working directories, on a Unix system without symbolic links", "why_tests_cant": "Paths combine \".\", \"..\" and repeated slashes in unboundedly many ways.", "anchors": ["fs/file_path.go:124-126"]}
{"id": "C199", "title": "A lock-free deque needs no Init", "statement": "A deque that is the zero value may be used at once: the first PushBack makes a buffer of 8 slots, and concurrent calls of PushBack, PopFront and Size take effect atomically as those of a first-in first-out queue. (False of several pushers; see the refutation.)", "quantifier": "all interleavings of all calls, one step per access to the field d, the word and the cells", "why_tests_cant": "The moment at which two goroutines find no buffer is one of unboundedly many interleavings.", "anchors": ["stl/gp/lfdeque.gp.go:59-82", "stl/gp/lfdeque.gp.go:110-132"]}
{"id": "C200", "title": "The first calls of a lock-free deque have no data race", "statement": "Goroutines that use a deque without Init make no conflicting unordered accesses, as the Go memory model defines them. (False of several pushers; see the refutation.)", "quantifier": "all interleavings of all calls", "why_tests_cant": "A race detector only sees the interleavings that happen in a test.", "anchors": ["stl/gp/lfdeque.gp.go:59-82", "stl/gp/lfdeque.gp.go:110-149"]}
{"id": "C201", "title": "The generators are lock-free", "statement": "Whatever the schedule, goroutines that keep calling Rand, Srand and Seed of one generator make progress as a whole: with P goroutines, more than r calls return in any (2P+2)(r+2P)+1 consecutive steps, no matter which goroutines the scheduler stops. A goroutine that is stopped in the middle of Rand does not hold up the others.", "quantifier": "all generators (32 and 64 bit and any other constants), seeds, numbers of goroutines, histories and interleavings of the atomic accesses", "why_tests_cant": "a test sees the schedules that happen on its machine; a bound for all of them needs an argument over all interleavings", "anchors": ["math/rand/rand.gp_32.go:47", "math/rand/rand.gp_32.go:63", "math/rand/rand.gp_64.go:63", "math/rand/rand.gp_64.go:101", "math/rand/rand.gp_64.go:106"]}
{"id": "C202", "title": "Every call of a generator returns after boundedly many steps of its own", "statement": "A call of Rand, Srand or Seed ends within a number of its own steps that does not depend on what other goroutines do.", "quantifier": "all generators, seeds, histories and interleavings of the atomic accesses", "why_tests_cant": "the schedule that lets a call of Rand fail over and over is too rare to be met by tests", "anchors": ["math/rand/rand.gp_32.go:63", "math/rand/rand.gp_64.go:63", "math/rand/rand.gp_64.go:101", "math/rand/rand.gp_64.go:106"]}
{"id": "C203", "title": "MustPush waits only for room and MustPop only for values", "statement": "If goroutines have called MustPush, MustPop and Size on one ring buffer and all of them keep running, then after finitely many rounds exactly as many calls of MustPush have returned as there were places (the capacity and one for every MustPop), exactly as many calls of MustPop as there were values, and every call of Size: no call waits for anything else, and no wake-up is lost.", "quantifier": "all capacities 2^k, numbers of goroutines, histories and fair schedules (fewer than 2^64 - 2^k calls)", "why_tests_cant": "a lost wake-up or a cycle of waits shows up as a hang in rare schedules; a test cannot tell a hang from a slow run nor try all fair schedules", "anchors": ["stl/gp/ringbuffer.gp.go:59", "stl/gp/ringbuffer.gp.go:73", "stl/gp/ringbuffer.gp.go:112"]}
{"id": "C204", "title": "A goroutine that stops does not hold up the users of a ring buffer", "statement": "The ring buffer uses atomic operations to avoid locks: when a goroutine is suspended or dies in the middle of a call, calls of the others still return as far as there are room and values.", "quantifier": "all capacities 2^k, numbers of goroutines, points at which goroutines stop, and fair schedules of the others", "why_tests_cant": "goroutines cannot be stopped at a chosen instruction by a test", "anchors": ["stl/gp/ringbuffer.gp.go:17", "stl/gp/ringbuffer.gp.go:59", "stl/gp/ringbuffer.gp.go:73"]}
{"id": "C205", "title": "The AES helper with AES itself is a keyed CBC chain that comes back", "statement": "With AES as published (FIPS 197): for every key of 16, 24 or 32 bytes the decryption of a block undoes its encryption and the other way round. Messages of any length encrypted one after the other by a new AESEncrypter are decrypted by a new AESDecrypter with the same key to exactly the same messages, and the texts together form one CBC chain over the PKCS#7-padded messages with the first 16 bytes of the key as initial vector.", "quantifier": "all keys of 128, 192 and 256 bits, all sequences of messages of all lengths", "why_tests_cant": "2^128 or more keys and blocks; a table entry or matrix constant that is wrong for one byte value in one round shows only on some inputs", "anchors": ["crypto/aes/aes.go: NewAESEncrypter, Encrypt, NewAESDecrypter, Decrypt", "standard library crypto/aes, crypto/cipher"]}
{"id": "C206", "title": "Triple-DES helper and Encode/Decode with DES itself", "statement": "With DES as published (FIPS 46-3): for every key of 8 bytes decryption of a block undoes encryption and the other way round. TripleDesEncrypt fills the message up with zeros and encrypts, decrypts and encrypts every block with the three parts of the key; TripleDesDecrypt gives the message without its trailing zeros; Encode gives a base64 text which Decode turns back likewise.", "quantifier": "all keys of all lengths, all messages", "why_tests_cant": "2^64 blocks and up to 2^192 keys; a wrong entry of one of the eight selection tables shows only for some inputs", "anchors": ["crypto/ecb/ecb.go: TripleDesEncrypt, TripleDesDecrypt, encrypt, decrypt", "crypto/rsa/code.go: Encode, Decode", "standard library crypto/des"]}
{"id": "C207", "title": "Which keys of the triple-DES helper are the same key", "statement": "Keys that differ only in the lowest bits of their bytes encrypt and decrypt every message alike; with a key of at most 8 bytes the text is that of single DES.", "quantifier": "all pairs of keys that differ only in those bits, all short keys, all messages", "why_tests_cant": "equality of two functions on all messages", "anchors": ["crypto/ecb/ecb.go: TripleDesEncrypt, TripleDesDecrypt"]}
{"id": "C208", "title": "Triple-DES texts show exactly which blocks are equal", "statement": "For texts made with the same key, a block of one text equals a block of the same or another text if and only if the corresponding blocks of the messages filled up with zeros are equal.", "quantifier": "all keys, all pairs of messages, all pairs of block positions", "why_tests_cant": "an equivalence over all pairs of blocks; a missing collision cannot be tested", "anchors": ["crypto/ecb/ecb.go: TripleDesEncrypt, encrypt"]}
{"id": "C209", "title": "AES texts of new encrypters show exactly the common beginning", "statement": "Two new AESEncrypters with the same key: the texts of two messages agree in the first n blocks if and only if the padded messages agree in the first n blocks (the initial vector is taken from the key).", "quantifier": "all keys of legal length, all pairs of messages, all n", "why_tests_cant": "an equivalence over all pairs of messages; a missing collision cannot be tested", "anchors": ["crypto/aes/aes.go: NewAESEncrypter, Encrypt"]}
{"id": "C210", "title": "Match decides whether a path belongs to a pattern", "statement": "For every well-formed pattern, FilePathObject.Match returns true exactly if the path is one of the texts that the pattern stands for by the documentation of filepath.Match (star: any run of characters without separator, question mark: one such character, classes, escapes). Proved for classes that do not contain the separator, and for ASCII paths or patterns whose stars are followed by a written-out character, another star or nothing; refuted in general: a star may skip a part of a character of several bytes, and a chunk behind a star is not tried again behind a separator that a negated class matched.", "quantifier": "all patterns of the grammar over all Unicode characters, all paths of Unicode characters", "why_tests_cant": "the matcher cuts patterns into chunks and takes the first place where a chunk fits; that this finds a match if there is one is a statement about all pairs of pattern and path", "anchors": ["fs/file_path.go:176-178"]}
{"id": "C211", "title": "Match returns, and reports only malformed patterns", "statement": "FilePathObject.Match returns for every pattern and path; it never reports an error for a well-formed pattern; and if it reports a match, the pattern is well-formed. A malformed term (a trailing backslash, or a class that is not closed or has a misplaced minus) is reported if it is reached: the terms before it, without stars except at the beginning, match a beginning of the path and something of the path is left. Refuted: that every malformed pattern is reported (a[ is not reported for the path b).", "quantifier": "all byte strings as patterns and paths; the statements about well-formedness for all patterns of Unicode characters", "why_tests_cant": "malformed patterns are infinitely many, and whether they are noticed depends on the path", "anchors": ["fs/file_path.go:176-178"]}
{"id": "C212", "title": "On Windows a file path is kept in one form", "statement": "On Windows FilePath gives a text without backslashes. Making a file path of that text again changes nothing, and the text stands for the same place (volume and directories, for every current volume and every current directory of each drive) as the string it was made from, unless the string has no volume and leads below a name that begins like a drive (such as ./c:/x). Two strings without share, and without such names, have the same file path exactly if they always stand for the same place. Refuted: without these exceptions (./c:/x becomes c:/x on another volume; ./c: becomes c: and then c:. ; //h/s and //h/s/ stay different).", "quantifier": "all byte strings, all current volumes and directories", "why_tests_cant": "the strings are infinitely many; the exceptions are a few odd forms", "anchors": ["fs/file_path.go:74-83"]}
{"id": "C213", "title": "On Windows StringSys writes the same path with backslashes", "statement": "On Windows StringSys gives a text without slashes that stands for the same place, and FilePath of it is FilePath of the original.", "quantifier": "all byte strings, all current volumes and directories", "why_tests_cant": "volumes are recognised in several forms, with any mix of separators", "anchors": ["fs/file_path.go:96-98"]}
{"id": "C214", "title": "On Windows SplitAll gives the volume and the names", "statement": "On Windows SplitAll of an absolute path gives the volume, if there is one, followed by the names down to it (for the root the path itself; for a share alone the share). Joins of the parts gives back a path on a share. Refuted: that SplitAll always returns (every relative path, also one relative to a drive, panics), and that Joins gives back a path on a drive (c:/b becomes c:b, relative to the directory of the drive).", "quantifier": "all byte strings", "why_tests_cant": "the number of parts and the form of the volume are unbounded", "anchors": ["fs/file_path.go:189-209", "fs/file_path.go:212-215"]}
{"id": "C215", "title": "On Windows Rename and Move act on the place that the destination names", "statement": "On Windows Rename of an absolute file path gives os.Rename the destination itself if it has a volume, and otherwise the place to which a relative destination leads from the directory of the file; Move does the same if the destination has the same volume or none. Refuted: a destination that begins with a separator and has no volume is taken inside the directory of the file instead of at the root of its volume; Move to another volume (or to the same drive written in the other case) does nothing and reports success.", "quantifier": "all absolute paths with volume as files, all byte strings as destinations", "why_tests_cant": "needs Windows, several volumes, and all forms of destinations", "anchors": ["fs/file_path.go:289-292", "fs/file_path.go:340-346", "fs/file_path.go:493-499"]}
{"id": "C216", "title": "On Windows Joins leads along its elements", "statement": "On Windows Joins of an element and further ones leads to the place reached by starting from the place of the first and going along the others in turn; in particular joining elements never makes a path on a share out of elements that are not on one. Excepted: a drive alone followed by an empty element or one that begins with a separator, and elements with colons behind one without volume. Refuted without the exceptions (c: joined with an empty element and x is c:/x, not x in the directory of the drive).", "quantifier": "all lists of byte strings, all current volumes and directories", "why_tests_cant": "the cases in which joined elements look like a share are rare and depend on several elements", "anchors": ["fs/file_path.go:212-226"]}
{"id": "C217", "title": "On Windows VolumeName, Dir and Base take a path apart", "statement": "On Windows VolumeName gives exactly the volume (a drive or a share, written with backslashes), or nothing if there is none. For an absolute path Dir stands for the directory one step up on the same volume (the root for the root, the share for a share alone), Base is the last name (a backslash for the root), and with a volume, or without colon, Joins of the two gives the path back unless it is a root. For a relative path without colon, on a drive or not, that ends in a name, Base is that name, Dir stands for the directory the name is in, and Joins of the two gives the path back. For one that only goes up, Base is .. and Dir goes up one step less.", "quantifier": "all byte strings, all current volumes and directories", "why_tests_cant": "volumes come in many forms, with any mix of separators", "anchors": ["fs/file_path.go:161-173"]}
{"id": "C218", "title": "Walk visits every entry once in lexical order and obeys the function", "statement": "Walk calls the given function exactly for: every entry of the tree below the path (the path itself first, with its own text; the others with the clean path of their place), once more with an error for every directory that cannot be listed, and with an error for every entry that cannot be examined; in lexical order of the names, a directory before its contents. If the function answers SkipDir for a directory, exactly what is inside it is left out; for a file, the rest of the directory it is in; for an error nothing. If it answers another error, no further call is made and Walk returns that error; otherwise Walk returns nil.", "quantifier": "all directory trees (which do not change during the walk), all functions with state of any type, all start paths", "why_tests_cant": "trees and functions are unbounded; the effect of answers depends on the whole tree", "anchors": ["fs/file_path.go:153-158"]}
{"id": "C219", "title": "Statistic counts directories that cannot be read and reports the errors", "statement": "Statistic returns the numbers of all directories (also of those that cannot be listed) and of all files that can be reached and examined, the sum of the sizes of the files modulo 2^64, and a text with one line per error in the order of the walk; it never panics.", "quantifier": "all directory trees (which do not change during the walk)", "why_tests_cant": "errors can occur at any place of a tree of any size", "anchors": ["fs/file_path.go:349-371"]}
{"id": "C220", "title": "FilePath names the file that the text names", "statement": "For every text, the object that FilePath makes of it names (for Stat, Open and the other calls) the file that the text names to the operating system.", "quantifier": "all file systems with hard and symbolic links, all working directories, all texts", "why_tests_cant": "whether a text and its cleaned form name the same file depends on the links in the file system", "anchors": ["fs/file_path.go:74-83", "fs/file_path.go:317-334"]}
{"id": "C221", "title": "Symlink makes a path that leads to the object", "statement": "After a successful Symlink the returned path leads to what the object's path named (unless there are more links on the way than the system allows), and whatever existed is still found under its paths.", "quantifier": "all file systems with hard and symbolic links, all paths, all working directories", "why_tests_cant": "depends on how a text is read in the directory of the link", "anchors": ["fs/file_path.go:295-299", "fs/file_path.go:340-346"]}
{"id": "C222", "title": "Link gives a file a second name of its own", "statement": "After a successful Link both paths name the same file, and whatever existed is still found under its paths; Remove of the first path then succeeds and leaves the file with its bytes under the second.", "quantifier": "all file systems with hard and symbolic links, all paths, all working directories", "why_tests_cant": "depends on the links on the way to both names", "anchors": ["fs/file_path.go:254-259", "fs/file_path.go:276-279", "fs/file_path.go:340-346"]}
{"id": "C223", "title": "Hash and Fingerprint return also where links form circles", "statement": "Fingerprint and Hash return for every path in every file system with links. A result is that of the tree in which every symbolic link is replaced by what it leads to. They return an error exactly if the path, or the path of some entry found below it, cannot be opened; in particular if links below the path lead around in a circle.", "quantifier": "all file systems with hard and symbolic links whose directories have a bounded depth, all limits on followed links, all paths and working directories", "why_tests_cant": "links make the recursion unbounded by the tree; only the limit of the system ends it", "anchors": ["fs/file_path.go:393-436", "fs/file_path.go:439-484"]}
{"id": "C224", "title": "CollectSubs returns and never enters links", "statement": "In every Unix file system whose directories have a bounded depth, however symbolic links lead (also in circles), CollectSubs returns for every path and all options. For a path made by FilePath it lists exactly what the options ask for of the tree in which every symbolic link below the path counts as a file and is not entered; the path itself may be or contain links.", "quantifier": "for all file systems with links, working directories, paths and option sets", "why_tests_cant": "Tests try a few trees without links; a circle of links or a link to a large directory is never among them.", "anchors": ["fs/fs.go:57-94"]}
{"id": "C225", "title": "full paths of CollectSubs lead to the entries", "statement": "With FsFullPath every path CollectSubs returns leads to the entry it was given for.", "quantifier": "for all file systems with links, working directories, paths and option sets", "why_tests_cant": "The paths are built with Joins, which drops steps upwards textually; only paths with '..' behind a link show the difference.", "anchors": ["fs/fs.go:57-94", "fs/file_path.go:212-215"]}
{"id": "C226", "title": "reflect.New makes an object of the type of the sample", "statement": "New(sample) returns a new object of the same type as sample, with the zero value, and changes nothing else.", "quantifier": "for all samples and all Go types", "why_tests_cant": "A type assertion in a test on one type says nothing about the others; the doc comment promises the sample's type for all of them.", "anchors": ["reflect/reflect.go:7-12"]}
{"id": "C227", "title": "IsSameType is identity of dynamic types", "statement": "IsSameType(l, r) is true exactly if both interfaces are nil or both hold values of identical dynamic types; then Kind gives the same for both. A defined type has the kind of its underlying type but is another type.", "quantifier": "for all pairs of interface values", "why_tests_cant": "There are infinitely many types, and a test compares only a few pairs.", "anchors": ["reflect/reflect.go:14-23"]}
{"id": "C228", "title": "IsCmpableInnterType tells which values can be ordered", "statement": "IsCmpableInnterType(x) is true exactly if values of the type of x can be compared with <; New and Kind panic on nil exactly.", "quantifier": "for all interface values", "why_tests_cant": "Defined types and nil are not in the list of the type switch.", "anchors": ["reflect/reflect.go:25-32"]}
{"id": "C229", "title": "BToI and ItoB are inverse", "statement": "ItoB(BToI(b)) is b, BToI gives 0 or 1, ItoB is true of all numbers but 0, and BToI(ItoB(i)) is i for 0 and 1.", "quantifier": "for all truth values and all integers", "why_tests_cant": "Tests check a few integers.", "anchors": ["math/bool.go:6-18"]}
{"id": "C230", "title": "Rename gives the file the name it returns", "statement": "If Rename(newname) of an existing file or link succeeds, the path it returns names the file, with its contents, and the old path names nothing (unless both were names of it before); every path to anything else leads where it led. It succeeds if the directory of the new name exists and nothing or a file has the name.", "quantifier": "for all file systems with links, paths and new names", "why_tests_cant": "Whether a path still leads to the file after the move depends on every link the path passes.", "anchors": ["fs/file_path.go:289-292"]}
{"id": "C231", "title": "Walk returns and never enters links", "statement": "In every Unix file system whose directories have a bounded depth, however symbolic links lead, Walk returns for every function. If there is something at the path, the function is called for exactly the entries inside it, in lexical order; a symbolic link is reported as itself and not entered, even if it is the path itself; every call gets a path at which Lstat finds the entry; SkipDir and errors are obeyed. If there is nothing at the path the function is called once, with the error.", "quantifier": "for all file systems with links, working directories, paths, functions and states of them", "why_tests_cant": "A tree with links in circles, or with a link at the root of the walk, is not what a test builds; and the order and the effect of SkipDir depend on the whole tree.", "anchors": ["fs/file_path.go:152-158"]}
{"id": "C232", "title": "Statistic counts what is at the path", "statement": "Statistic returns the number of directories, of files and the bytes (modulo 2^64) of what Stat finds at the path, and no error text if all of it can be read.", "quantifier": "for all file systems with links, working directories and paths", "why_tests_cant": "Whether the path is a link is not visible in a test that builds its own directory.", "anchors": ["fs/file_path.go:349-371"]}
{"id": "C233", "title": "Rename moves a directory with all that is in it", "statement": "If Rename(newname) of a directory succeeds, the path it returns names the directory: that path followed by the names inside leads to what was there before, the old path names nothing, and paths that do not pass through the directory lead where they led. It succeeds if the new name is free, its directory exists and does not lie inside the moved one; otherwise nothing changes.", "quantifier": "for all file systems with links, working directories, paths and new names", "why_tests_cant": "What a path leads to after the move depends on every link and every step upwards on the way.", "anchors": ["fs/file_path.go:289-292"]}
{"id": "C234", "title": "RemoveAll removes a directory with all that is in it, and nothing else", "statement": "FilePath.RemoveAll of a directory returns without error; afterwards the path names nothing, every directory that was anywhere inside it is empty, no file's content and no link has changed (so what links inside the directory lead to stays), and every path that does not pass through the directory leads where it led. RemoveAll of a file or a link is Remove: a link is removed, not what it leads to. RemoveAll of a path that names nothing changes nothing and is no error; one that meets too many links changes nothing and is an error. RemoveAll of any path returns; if it returns no error, the path names nothing afterwards; and with or without an error no file or link has changed, no entry was added, and no directory has been lost with something in it. The first part fails for a path that passes through the directory itself by way of a link in it.", "quantifier": "All Unix file systems with hard links and symbolic links whose directories form a tree of finite depth, all working directories, all paths", "why_tests_cant": "The trees, links and paths are unbounded; a test removes a few directories, usually without links.", "anchors": ["fs/file_path.go:277-285"]}
{"id": "C235", "title": "MkdirAll makes the path or changes nothing", "statement": "FilePath.MkdirAll returns. It succeeds exactly if every leading part of the path leads to a directory or names nothing; in particular it fails if one of them is a file or a link that leads nowhere. If it fails, the file system is as it was: no directory is left half made. If it succeeds, the path leads to a directory, every path that led somewhere leads there still, no file and no link has changed, and all that is new are directories that leading parts of the path lead to. Mkdir in an existing directory fails exactly if something has the name (even a link that leads nowhere), and otherwise makes one empty directory.", "quantifier": "All Unix file systems with hard links and symbolic links, all working directories, all texts given to FilePath, all ways to number new inodes", "why_tests_cant": "A test makes a few directories; which of the leading parts exist, are links, files or missing has unboundedly many combinations.", "anchors": ["fs/file_path.go:262-269"]}
{"id": "C236", "title": "A directory that Rename has moved keeps its Fingerprint", "statement": "After a successful FilePath.Rename of a directory, Fingerprint and Hash of the returned path give no error and the same text and size as they gave for the old path before, so that a copy can be recognised by its fingerprint wherever it has been moved to.", "quantifier": "All Unix file systems with bounded depth, all directories, all new names that nothing has, all hash functions, all sorting functions that keep the promise of sort.Sort, all orders of entries", "why_tests_cant": "The trees, their sizes and the ways to move them are unbounded; a test moves a directory of a few files and will not have a relative link in it.", "anchors": ["fs/file_path.go:289-292", "fs/file_path.go:393-436", "fs/file_path.go:439-484"]}
{"id": "C237", "title": "EvalSymlinks gives a path without links to the same file", "statement": "For every file system with symbolic links and every FilePathObject, EvalSymlinks returns, unless a link with an empty text is met; a path it returns without an error is clean and names something that is found without following one link; and if the operating system finds a file at the object, EvalSymlinks gives a path to that very file.", "quantifier": "all sound file systems with links, all paths, all working directories, all limits of the kernel on links", "why_tests_cant": "The library replaces one link in each place per round and cleans the path between rounds, so chains of links, links in the middle of the path and \"..\" in the text of a link interact; which file results depends on the whole of the file system.", "anchors": ["fs/file_path.go:119-121"]}
{"id": "C238", "title": "WorkPath leads to the working directory, also through links", "statement": "On a Unix system with symbolic links: a program started in a directory below the root never panics by fs.Chdir, os.Chdir, WorkPath, RelateWorkPath and os.Getwd. As long as only fs.Chdir changes the working directory, WorkPath() is an absolute path that leads to it; after os.Chdir the next successful fs.Chdir makes that true again.", "quantifier": "all sound file systems with links, all start directories below the root, all values of PWD, all sequences of calls with all arguments", "why_tests_cant": "os.Getwd believes the environment variable PWD when it leads to the working directory, and the kernel otherwise; links, PWD and the sequence of calls are unbounded.", "anchors": ["fs/file_line.go:59-66", "fs/file_line.go:69-71", "fs/file_line.go:93-98"]}
{"id": "C239", "title": "RelateWorkPath leads to the same file, also through links", "statement": "On a Unix system with symbolic links: RelateWorkPath(p) of an absolute path p, followed from the working directory, leads to the file that p leads to. (True if there is no link in WorkPath(), which is so if PWD does not lead to the working directory, and p meets no link before its last step upwards; false in general: PWD may lead through a link, and then the steps upwards go elsewhere.)", "quantifier": "all sound file systems with links, all start directories below the root, all values of PWD, all sequences of calls of fs.Chdir, all absolute paths", "why_tests_cant": "A path relative to the working directory is computed on texts; whether the steps upwards arrive depends on all links on the way.", "anchors": ["fs/file_line.go:79-81", "fs/file_path.go:141-144"]}
{"id": "C240", "title": "Chdir goes where os.Chdir goes, also through links", "statement": "On a Unix system with symbolic links: where os.Chdir(p) succeeds, fs.Chdir(p) succeeds and goes to the same directory. (True if p meets no link before its last step upwards; false in general: fs.Chdir cleans the path first.)", "quantifier": "all sound file systems with links, all working directories below the root, all texts p", "why_tests_cant": "The directories, the links and the texts are unbounded; tests of Chdir use directories without links.", "anchors": ["fs/file_line.go:93-98", "fs/file_line.go:101-103"]}
{"id": "C241", "title": "Generators do not disturb each other", "statement": "What a generator made by NewRand64S(seed) or NewRand32S(seed) returns depends only on the seed and on the calls of that generator: a program that makes only this generator and calls only it gets the same numbers, whenever it runs, and whatever other generators and functions of the package the first program used before and in between. What the functions of the package return, and the seeds of NewRand64() and NewRand32(), do not depend on the calls of generators. The numbers of one generator follow each other: the k-th call of Rand gives the k-th number of the sequence of the seed.", "quantifier": "all seeds, both word sizes, all clocks, all finite sequences of calls on any number of generators, one call after the other", "why_tests_cant": "A test compares a few interleavings; the claim is about every interleaving of calls on any number of generators.", "anchors": ["math/rand/rand.gp_64.go:53-109", "math/rand/rand.gp_32.go:53-109"]}
{"id": "C242", "title": "Relate leads to the same file on Windows", "statement": "On Windows: p.Relate(root) of an absolute path p (with volume), followed from root, leads to the place of p, up to upper and lower case. (True if both begin with the same volume up to case, root has a separator behind its volume, and p has no colon behind its volume. False otherwise: on another volume the result is always \".\"; for the root of a share written without a separator at its end it is \".\" too; a name such as d: becomes a drive. Without volumes it is true if both begin with a separator, or neither does and root leads down; from a root such as .. the result is \".\" again, as it is if one of the two has a volume and the other has none.)", "quantifier": "all absolute paths with drives or shares, all paths without volume, all roots, both separators, every comparison with the properties of strings.EqualFold, all current directories", "why_tests_cant": "The path is computed on texts with two separators, two kinds of volumes and a comparison that ignores case; a test on Unix never runs this code.", "anchors": ["fs/file_path.go:129-132", "fs/file_path.go:74-83"]}
{"id": "C243", "title": "GoPath and RelateGoPath on Windows", "statement": "On Windows: GoPath() is the directory src in the first directory of GOPATH, whose entries are separated by semicolons, and RelateGoPath(p) of an absolute path p on the same volume, followed from GoPath(), leads to the place of p, up to upper and lower case. (True if the first entry has a volume with a separator behind it, or is a share; false for a drive alone: with GOPATH=c: it is the directory src at the root of the drive. Also true of a first entry without volume and colons, for paths without volume, unless it begins with two separators: then src becomes the name of a share.)", "quantifier": "all values of GOPATH, all absolute paths with drives or shares, every comparison with the properties of strings.EqualFold, all current directories", "why_tests_cant": "GOPATH is read once when the program starts, so a test sees one value; all values and paths are covered here.", "anchors": ["fs/file_line.go:45-52", "fs/file_line.go:74-76", "fs/file_path.go:135-138"]}
{"id": "C244", "title": "Ext on Windows", "statement": "On Windows: Ext() is the text from the last full stop of the last element on, and empty if that element has none; elements end at slashes and backslashes alike. It takes no heed of volumes: for a share alone it is the extension of the name of the share, although Base() is a backslash.", "quantifier": "all paths, both separators, all shares", "why_tests_cant": "Which element is the last depends on two separators at any positions; a test on Unix never treats the backslash as one.", "anchors": ["fs/file_path.go:114-116"]}
{"id": "C245", "title": "SplitList on Windows", "statement": "On Windows: SplitList() gives exactly the paths of a list written with semicolons, where a semicolon between quotation marks does not separate and quotation marks are not part of the paths (one may be missing at the end). Paths without quotation marks, each written between quotation marks, are found again whatever semicolons they contain.", "quantifier": "all texts, all lists of paths", "why_tests_cant": "Quotation marks may open and close anywhere; tests show a few lists, and on Unix another function runs.", "anchors": ["fs/file_path.go:104-106"]}
{"id": "C246", "title": "HasPrefix on Windows", "statement": "On Windows: p.HasPrefix(dir) holds of exactly the paths that are the directory or below it, whatever the case of the letters. (It holds of all of them; but also of others, such as c:/ab for c:/a.)", "quantifier": "all directories, all names below, every function with the properties of strings.ToLower, all spellings of the prefix", "why_tests_cant": "The claim ranges over all paths and all ways to write them in upper and lower case.", "anchors": ["fs/file_path.go:181-183"]}
{"id": "C247", "title": "RelateWorkPath on Windows", "statement": "On Windows: RelateWorkPath(p) of an absolute path p, followed from the working directory, leads to the place of p, up to upper and lower case. (True on the volume of the working directory if p has no colon behind its volume; on another volume the result is always \".\".)", "quantifier": "all working directories and absolute paths with drives or shares, both separators, every comparison with the properties of strings.EqualFold", "why_tests_cant": "A test has one working directory; all of them and all paths are covered here.", "anchors": ["fs/file_line.go:79-81", "fs/file_path.go:141-144"]}
{"id": "C248", "title": "On Windows Match decides by the rules of Windows, for which a file path is one element", "statement": "On Windows, for every well-formed pattern (no escapes there) and every file path (no backslash in it), FilePathObject.Match returns true exactly if the path is one of the texts that the pattern stands for by the documentation of filepath.Match with the backslash as separator. Proved for ASCII paths or patterns whose stars are followed by a written-out character, another star or nothing. So a star alone matches every file path, and a pattern that spells out a backslash matches none. Refuted: that a pattern means the same as on Unix (a star crosses slashes; an escaped star does not match a star), and that the restriction can be dropped (a star may skip a part of a character of several bytes).", "quantifier": "all patterns of the grammar over all Unicode characters, all file paths of Unicode characters", "why_tests_cant": "pairs of pattern and path are infinitely many, and the tests run on one platform", "anchors": ["fs/file_path.go:176-178", "fs/file_path.go:74-83"]}
{"id": "C249", "title": "On Windows Match returns, and reports only malformed patterns", "statement": "On Windows FilePathObject.Match returns for every pattern and path; it never reports an error for a pattern that is well-formed there; and if it reports a match, the pattern is well-formed. A malformed term (a class that is not closed or has a misplaced minus) is reported if it is reached: the terms before it, without stars except at the beginning, match a beginning of the path and something of the path is left. Refuted: that every malformed pattern is reported (a[ is not reported for the path b).", "quantifier": "all byte strings as patterns and paths; the statements about well-formedness for all patterns of Unicode characters", "why_tests_cant": "malformed patterns are infinitely many, and whether they are noticed depends on the path", "anchors": ["fs/file_path.go:176-178"]}
{"id": "C250", "title": "On Windows Split cuts at the last separator outside the volume, and Base is the last element", "statement": "On Windows Split cuts any text behind its last slash or backslash, but never inside the drive or share it begins with: directory and file together are the text, and the file has no separator. Base of any text is its last element without the separators after it, a backslash for separators only or a volume with nothing but separators after it, and . for the empty text.", "quantifier": "all byte strings", "why_tests_cant": "volumes, both separators and trailing separators combine in unboundedly many ways", "anchors": ["fs/file_path.go:109-111", "fs/file_path.go:161-163"]}
{"id": "C251", "title": "On Windows a name joined to a path is taken off again by Base and Dir", "statement": "On Windows, if a name is joined to a file path, Base of the result is the name and Dir of it stands for the place of the path, whatever the current volume and directories; names and paths with colons other than that of the drive are left out.", "quantifier": "all byte strings with at most the colon of the drive, all names without colon", "why_tests_cant": "drives, shares, roots, working directories of drives and paths upwards all take other branches", "anchors": ["fs/file_path.go:161-168", "fs/file_path.go:212-226"]}

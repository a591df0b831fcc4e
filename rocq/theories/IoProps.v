(** Properties of Copys and CopysBuffer. *)
From Coq Require Import ZArith List Bool.
From Verif Require Import GoBase IoModel IoSpec IoProofs.
Import ListNotations.
Open Scope Z_scope.

(** C47, for sources without WriteTo and at least one destination: everything
    arrives everywhere. Missing from the full statement: sources with WriteTo, and
    no destination at all; see the refutation. *)
Theorem C47_copys_partial : forall s buf ds,
  buf <> Some 0%nat -> ds <> [] -> Forall takes_all ds -> sr_end s = None ->
  exists s' ds', copys_plain s buf ds = Ok (s', ds', zlen (sr_data s), None) /\ all_received (sr_data s) ds ds'.
Proof. exact copys_all. Qed.
Print Assumptions C47_copys_partial.
Theorem C47_copys_refuted :
  (exists data ds ds' w, Forall takes_all ds /\ copys_writer_to data ds 0 None = ([], ds', w, None) /\
     w <> zlen data /\ ~ all_received data ds ds') /\
  (exists s s', sr_end s = None /\ copys s [] = Ok (s', [], 0, Some ErrShort)).
Proof.
  split.
  - exists [1; 2; 3], [Dest [] []; Dest [] []], [Dest [1; 2; 3] []; Dest [] []], 0.
    split; [repeat constructor|]. split; [reflexivity|]. split; [discriminate|].
    intros H. inversion H as [|? ? ? ? _ H2]; subst. inversion H2 as [|? ? ? ? H3 _]; subst. discriminate.
  - exists (Source [1] [] None). eexists. split; [reflexivity|]. vm_compute. reflexivity.
Qed.
Print Assumptions C47_copys_refuted.
Example C47_ex :
  copys_plain (Source [1; 2; 3; 4; 5] [(2, false); (0, true); (7, false)]%nat None) (Some 2%nat) [Dest [9] []; Dest [] [WAll]] =
  Ok (Source [] [] None, [Dest [9; 1; 2; 3; 4; 5] []; Dest [1; 2; 3; 4; 5] []], 5, None).
Proof. reflexivity. Qed.

(** C84: with destinations that keep the io.Writer contract and may fail, each
    receives a prefix. *)
Theorem C84_copys_prefixes : forall s buf ds, buf <> Some 0%nat -> ds <> [] -> Forall honest ds ->
  exists s' ds' w err, copys_plain s buf ds = Ok (s', ds', w, err) /\ copy_ok s ds s' ds' w err.
Proof. exact copys_honest. Qed.
Print Assumptions C84_copys_prefixes.
Example C84_ex :
  copys_plain (Source [1; 2; 3; 4; 5] [] None) (Some 2%nat) [Dest [] []; Dest [] [WAll; WFail 1 77]; Dest [] []] =
  Ok (Source [5] [] None, [Dest [1; 2; 3; 4] []; Dest [1; 2; 3] []; Dest [1; 2] []], 2, Some (ErrUser 77)) /\
  copys_plain (Source [1; 2] [(5, true)]%nat (Some 8)) None [Dest [] []] =
  Ok (Source [] [] (Some 8), [Dest [1; 2] []], 2, Some (ErrUser 8)).
Proof. split; vm_compute; reflexivity. Qed.

(** C85: without an error the last destination has everything, whatever any
    destination returned. Missing: the same for the others; see the refutation. *)
Theorem C85_short_writes_partial : forall s buf ds d s' ds' w,
  copys_plain s buf (ds ++ [d]) = Ok (s', ds', w, None) ->
  w = zlen (sr_data s) /\ exists ds1 d', ds' = ds1 ++ [d'] /\ length ds1 = length ds /\ ds_got d' = ds_got d ++ sr_data s.
Proof. exact copys_last. Qed.
Print Assumptions C85_short_writes_partial.
Theorem C85_short_writes_refuted : exists s ds s' ds',
  copys s ds = Ok (s', ds', zlen (sr_data s), None) /\ ~ all_received (sr_data s) ds ds'.
Proof.
  exists (Source [1; 2; 3] [] None), [Dest [] [WLie 1]; Dest [] []], (Source [] [] None), [Dest [1] []; Dest [1; 2; 3] []].
  split; [vm_compute; reflexivity|]. intros H. inversion H as [|? ? ? ? H1 _]; subst. discriminate.
Qed.
Print Assumptions C85_short_writes_refuted.
Example C85_ex : copys (Source [1; 2; 3] [] None) [Dest [] []; Dest [] [WLie 1]] =
  Ok (Source [] [] None, [Dest [1; 2; 3] []; Dest [1] []], 1, Some ErrShort).
Proof. vm_compute. reflexivity. Qed.

(** C86: a source with WriteTo is drained by the first destination; the others
    get nothing, and the count is the last one's. *)
Theorem C86_copys_writer_to : forall data d ds, takes_all d ->
  exists d', copys_writer_to data (d :: ds) 0 None = ([], d' :: ds, match ds with [] => zlen data | _ => 0 end, None) /\
    ds_got d' = ds_got d ++ data.
Proof. exact writer_to_exact. Qed.
Print Assumptions C86_copys_writer_to.
(** C86: an error of the first destination is reported and stops the copy. *)
Theorem C86_writer_to_error : forall data d ds n e r, data <> [] -> ds_plan d = WFail n e :: r ->
  copys_writer_to data (d :: ds) 0 None =
  (skipn n data, Dest (ds_got d ++ firstn n data) r :: ds, zlen (firstn n data), Some (ErrUser e)).
Proof. exact writer_to_error. Qed.
Print Assumptions C86_writer_to_error.
Example C86_ex : copys_writer_to [1; 2; 3] [Dest [9] []; Dest [8] []] 0 None = ([], [Dest [9; 1; 2; 3] []; Dest [8] []], 0, None) /\
  copys_writer_to [1; 2; 3] [Dest [] [WFail 2 4]; Dest [] []] 0 None = ([3], [Dest [1; 2] []; Dest [] []], 2, Some (ErrUser 4)).
Proof. split; reflexivity. Qed.

(** C87: CopysBuffer returns, except when it is given an empty buffer and the
    source has data: then it reads forever. *)
Theorem C87_copys_ends : forall s buf ds, buf <> Some 0%nat -> exists r, copys_plain s buf ds = Ok r.
Proof. exact copys_ends. Qed.
Print Assumptions C87_copys_ends.
Theorem C87_copys_empty_buffer : forall fuel s ds w, sr_data s <> [] -> copy_loop fuel 0 s ds w = Diverge.
Proof. exact copys_stuck. Qed.
Print Assumptions C87_copys_empty_buffer.
Theorem C87_copys_nowhere : forall s buf, buf <> Some 0%nat -> sr_data s <> [] ->
  exists s', copys_plain s buf [] = Ok (s', [], 0, Some ErrShort).
Proof. exact copys_nowhere. Qed.
Print Assumptions C87_copys_nowhere.
Example C87_ex : copys_plain (Source [] [] None) (Some 0%nat) [Dest [] []] = Ok (Source [] [] None, [Dest [] []], 0, None) /\
  copys_plain (Source [1] [] None) (Some 0%nat) [Dest [] []] = Diverge.
Proof. split; reflexivity. Qed.

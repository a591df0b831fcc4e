(** Properties of fs.Create. *)
From Coq Require Import ZArith List Bool Arith.
From Verif Require Import GoBase CreateModel CreateSpec CreateProofs.
Import ListNotations.
Local Open Scope nat_scope.

(** C151 (partial): if Create(p) returns nil, there is something at p.  Missing: paths that cannot be opened, for which
    Create does nothing; see C151_missing.  If p can be opened and Create returns nil, p is an empty file afterwards. *)
Theorem C151_create_exists_partial :
  forall fuel limit readable writable gc st st',
    sound limit st -> can_open limit readable gc st = true ->
    fs_create fuel limit readable writable gc st = Ok (st', None) ->
    cs_entry st' = Some (EFile []) /\ exists old, cs_entry st = Some (EFile old).
Proof. exact returns_nil_partial. Qed.
Print Assumptions C151_create_exists_partial.
(** A missing path is not created, and Create returns nil. *)
Theorem C151_missing :
  forall fuel limit readable writable gc st, cs_entry st = None ->
    exists st', fs_create (S fuel) limit readable writable gc st = Ok (st', None) /\ cs_entry st' = None.
Proof. exact missing. Qed.
Print Assumptions C151_missing.
Theorem C151_create_exists_refuted :
  exists fuel limit gc st st',
    sound limit st /\ cs_used st < limit /\ fs_create fuel limit true true gc st = Ok (st', None) /\ ~ exists_ st'.
Proof. exact nil_false. Qed.
Print Assumptions C151_create_exists_refuted.

(** Four descriptors may be open, three are. The collector closes a file before the third system call: Create returns nil and the
    file is empty.  A missing file stays missing. *)
Example C151_ex :
  fs_create 2 4 true true (fun t => if t =? 2 then 1 else 0) (CSt (Some (EFile [7%Z; 8%Z])) 3 0 0) =
    Ok (CSt (Some (EFile [])) 4 1 3, None) /\
  fs_create 2 4 true true never (CSt None 3 0 0) = Ok (CSt None 3 0 1, None).
Proof. vm_compute. auto. Qed.

(** C152 (partial): Create leaves what is at an existing path as it was.  Missing: files that may be written, if the garbage
    collector closes files during the call; see the counterexample, in which Create returns an error although it emptied the
    file. *)
Theorem C152_create_keeps_partial :
  forall fuel limit readable writable gc st st' r,
    sound limit st -> fs_create fuel limit readable writable gc st = Ok (st', r) ->
    (writable = false \/ cs_entry st = Some EDir \/ cs_entry st = None \/ (forall t, gc t = 0)) -> cs_entry st' = cs_entry st.
Proof. exact keeps_partial. Qed.
Print Assumptions C152_create_keeps_partial.
(** In every case the file is unchanged or empty; nil means that it is empty. *)
Theorem C152_unchanged_or_empty :
  forall fuel limit readable writable gc st st' r,
    fs_create fuel limit readable writable gc st = Ok (st', r) -> sound limit st ->
    sound limit st' /\
    (can_open limit readable gc st = false -> r = None /\ cs_entry st' = cs_entry st) /\
    (can_open limit readable gc st = true ->
       (r = None /\ (exists c, cs_entry st = Some (EFile c)) /\ cs_entry st' = Some (EFile []) /\ writable = true) \/
       (r <> None /\ (cs_entry st' = cs_entry st \/
          (exists c, cs_entry st = Some (EFile c)) /\ cs_entry st' = Some (EFile []) /\ writable = true))).
Proof. exact create_any. Qed.
Print Assumptions C152_unchanged_or_empty.
Theorem C152_create_keeps_refuted :
  exists fuel limit gc old st st' r,
    sound limit st /\ cs_entry st = Some (EFile old) /\ old <> [] /\
    fs_create fuel limit true true gc st = Ok (st', r) /\ r <> None /\ cs_entry st' = Some (EFile []).
Proof. exact keeps_false. Qed.
Print Assumptions C152_create_keeps_refuted.

(** A directory is kept, with and without collection. *)
Example C152_ex :
  fs_create 9 6 true true never (CSt (Some EDir) 3 0 0) = Ok (CSt (Some EDir) 6 3 5, Some EMfile) /\
  fs_create 9 6 true true (fun t => if t =? 4 then 2 else 0) (CSt (Some EDir) 3 0 0) = Ok (CSt (Some EDir) 4 1 5, Some EIsDir).
Proof. vm_compute. auto. Qed.

(** C153 (partial): Create returns, and the process has no more files open than before.  Missing: paths that can be opened;
    see the exact behaviour and the counterexamples. *)
Theorem C153_create_returns_partial :
  forall fuel limit readable writable gc st, can_open limit readable gc st = false ->
    exists st', fs_create (S fuel) limit readable writable gc st = Ok (st', None) /\ cs_entry st' = cs_entry st /\
      cs_used st' <= cs_used st.
Proof. exact unopened. Qed.
Print Assumptions C153_create_returns_partial.
(** Without collection Create of an existing path uses up all descriptors, changes nothing and returns an error. *)
Theorem C153_uses_all_descriptors :
  forall limit writable st, sound limit st -> exists_ st -> cs_used st < limit ->
    exists depth, forall fuel, depth <= fuel -> exists st',
      fs_create fuel limit true writable never st = Ok (st', Some EMfile) /\
      cs_used st' = limit /\ cs_entry st' = cs_entry st.
Proof. exact descriptors. Qed.
Print Assumptions C153_uses_all_descriptors.
(** It returns if the collector closes nothing from some time on. *)
Theorem C153_returns_if_collector_stops :
  forall limit readable writable gc st, (exists quiet, forall t, quiet <= t -> gc t = 0) ->
    exists depth r, forall fuel, depth <= fuel -> fs_create fuel limit readable writable gc st = Ok r.
Proof. exact stops. Qed.
Print Assumptions C153_returns_if_collector_stops.
(** If it opened the path and returned nil, the file it created last is still open, though nothing refers to it. *)
Theorem C153_leaves_file_open :
  forall fuel limit readable writable gc st st',
    fs_create fuel limit readable writable gc st = Ok (st', None) -> can_open limit readable gc st = true -> 1 <= cs_leaked st'.
Proof. exact leaves_open. Qed.
Print Assumptions C153_leaves_file_open.
Theorem C153_create_returns_refuted :
  exists limit st, sound limit st /\ exists_ st /\ forall fuel, fs_create fuel limit true true always st = Diverge.
Proof. exact overflow. Qed.
Print Assumptions C153_create_returns_refuted.
Theorem C153_descriptors_refuted :
  exists limit st st' fuel r, sound limit st /\ exists_ st /\
    fs_create fuel limit true true never st = Ok (st', r) /\ cs_used st < cs_used st'.
Proof. exact leak_false. Qed.
Print Assumptions C153_descriptors_refuted.

(** A limit of 8 with 3 files open: five more are opened. A path that may not be read returns at once. *)
Example C153_ex :
  fs_create 9 8 true true never (CSt (Some (EFile [1%Z])) 3 0 0) = Ok (CSt (Some (EFile [1%Z])) 8 5 7, Some EMfile) /\
  fs_create 5 8 true true never (CSt (Some (EFile [1%Z])) 3 0 0) = Diverge /\
  fs_create 9 8 false true never (CSt (Some (EFile [1%Z])) 3 0 0) = Ok (CSt (Some (EFile [1%Z])) 3 0 1, None).
Proof. vm_compute. auto. Qed.

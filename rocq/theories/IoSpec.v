(** What copying to several destinations promises. *)
From Coq Require Import ZArith List Bool.
From Verif Require Import GoBase IoModel.
Import ListNotations.
Open Scope Z_scope.

(** A destination that never fails, and one that keeps the io.Writer contract: a
    short count comes with an error. *)
Definition takes_all (d : dest) : Prop := Forall (fun r => r = WAll) (ds_plan d).
Definition honest (d : dest) : Prop := Forall (fun r => forall n, r <> WLie n) (ds_plan d).

(** Each destination received a prefix of the data: the first [n] bytes for the
    [n] at its place. *)
Inductive received (data : list Z) : list dest -> list dest -> list nat -> Prop :=
  | rcv_nil : received data [] [] []
  | rcv_cons d d' n ds ds' ns : (n <= length data)%nat -> ds_got d' = ds_got d ++ firstn n data ->
      received data ds ds' ns -> received data (d :: ds) (d' :: ds') (n :: ns).

(** No number is smaller than a later one. *)
Fixpoint desc (ns : list nat) : Prop :=
  match ns with [] => True | n :: t => Forall (fun m => (m <= n)%nat) t /\ desc t end.

(** The outcome of a copy to honest destinations: [c] bytes were read, the
    destinations got prefixes, earlier ones no less than later ones, each at least
    what is counted as written; without an error everything was delivered, and an
    error is the source's or one a destination returned. *)
Definition copy_ok (s : source) (ds : list dest) (s' : source) (ds' : list dest) (w : Z) (err : option ioerr) : Prop :=
  exists c ns, (c <= length (sr_data s))%nat /\ sr_data s' = skipn c (sr_data s) /\
    received (sr_data s) ds ds' ns /\ desc ns /\ Forall (fun n => w <= Z.of_nat n /\ (n <= c)%nat) ns /\ 0 <= w /\
    match err with
    | None => w = zlen (sr_data s) /\ sr_end s = None
    | Some ErrShort => False
    | Some (ErrUser e) => (w = zlen (sr_data s) /\ sr_end s = Some e) \/ exists d n, In d ds /\ In (WFail n e) (ds_plan d)
    end.

(** Every destination received all of the data. *)
Definition all_received (data : list Z) (ds ds' : list dest) : Prop :=
  Forall2 (fun d d' => ds_got d' = ds_got d ++ data) ds ds'.

(** Data races as the Go memory model (go.dev/ref/mem) defines them. Nothing here
    corresponds to lines of /repo. *)
From Coq Require Import List Arith.
Import ListNotations.
Local Open Scope nat_scope.

Section Race.
Context {L : Type}.

(** Accesses to a memory location: plain reads and writes; atomic loads (also a
    compare-and-swap that fails), atomic stores, and atomic operations that read
    and write. *)
Inductive acc := PRead (l : L) | PWrite (l : L) | ALoad (l : L) | AStore (l : L) | ARmw (l : L).

Definition loc_of (a : acc) : L := match a with PRead l | PWrite l | ALoad l | AStore l | ARmw l => l end.
Definition atomic (a : acc) : bool := match a with PRead _ | PWrite _ => false | _ => true end.
Definition writes (a : acc) : bool := match a with PRead _ | ALoad _ => false | _ => true end.
Definition reads (a : acc) : bool := match a with PWrite _ | AStore _ => false | _ => true end.

(** An execution: who made which access, in the order in which they took effect. *)
Definition trace := list (nat * acc).

(** [i] is synchronized before [j]: both are atomic and [j] reads what [i] wrote. *)
Definition syncs (tr : trace) (i j : nat) : Prop :=
  exists t u a b, i < j /\ nth_error tr i = Some (t, a) /\ nth_error tr j = Some (u, b) /\
    atomic a = true /\ atomic b = true /\ writes a = true /\ reads b = true /\ loc_of a = loc_of b /\
    forall k v c, i < k < j -> nth_error tr k = Some (v, c) -> loc_of c = loc_of a -> writes c = false.

(** [i] happens before [j]. *)
Inductive hb (tr : trace) : nat -> nat -> Prop :=
| hb_po i j t a b : i < j -> nth_error tr i = Some (t, a) -> nth_error tr j = Some (t, b) -> hb tr i j
| hb_sync i j : syncs tr i j -> hb tr i j
| hb_trans i j k : hb tr i j -> hb tr j k -> hb tr i k.

(** Two accesses that must be ordered: the same location, at least one writes, at
    least one is not atomic. *)
Definition conflict (a b : acc) : Prop :=
  loc_of a = loc_of b /\ (writes a = true \/ writes b = true) /\ (atomic a = false \/ atomic b = false).

(** A data race. *)
Definition race (tr : trace) (i j : nat) : Prop :=
  exists t u a b, i < j /\ nth_error tr i = Some (t, a) /\ nth_error tr j = Some (u, b) /\ t <> u /\
    conflict a b /\ ~ hb tr i j.

Definition race_free (tr : trace) : Prop := forall i j, ~ race tr i j.

(** The accesses of a run of a machine, when [accs s t op] are those of one step. *)
Context {S Op E : Type}.
Fixpoint trace_of (step : S -> nat -> Op -> S * list E) (accs : S -> nat -> Op -> list acc) (s : S) (sched : list (nat * Op)) : trace :=
  match sched with
  | [] => []
  | (t, op) :: rest => map (pair t) (accs s t op) ++ trace_of step accs (fst (step s t op)) rest
  end.
End Race.
Arguments acc : clear implicits.
Arguments trace : clear implicits.

(** When a list of accesses is a true account of a step. [val s l] is what the
    location [l] holds, [own s t] what belongs to goroutine [t] alone, [env s] what
    the step may use besides (the allocator). A location changes only if a write to
    it is listed. And a step depends on nothing but the listed reads: in two
    states that agree on them, the step makes the same accesses, shows the same
    events, stores the same values and leaves the goroutine in the same place. *)
Definition honest {L V X Y S Op E : Type} (step : S -> nat -> Op -> S * list E) (accs : S -> nat -> Op -> list (acc L))
  (val : S -> L -> V) (own : S -> nat -> X) (env : S -> Y) : Prop :=
  (forall s t op l, (exists a, In a (accs s t op) /\ writes a = true /\ loc_of a = l) \/ val (fst (step s t op)) l = val s l) /\
  (forall s t op u, u <> t -> own (fst (step s t op)) u = own s u) /\
  (forall s s' t op, own s t = own s' t -> env s = env s' ->
     (forall a, In a (accs s t op) -> reads a = true -> val s (loc_of a) = val s' (loc_of a)) ->
     accs s' t op = accs s t op /\ snd (step s' t op) = snd (step s t op) /\
     own (fst (step s' t op)) t = own (fst (step s t op)) t /\
     forall a, In a (accs s t op) -> writes a = true ->
       val (fst (step s' t op)) (loc_of a) = val (fst (step s t op)) (loc_of a)).

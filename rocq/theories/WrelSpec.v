(** Texts that are equal up to case. *)
From Coq Require Import ZArith List Bool.
From Verif Require Import PathSpec WinSpec.
Import ListNotations.
Open Scope Z_scope.

(** The pieces of a text between backslashes. *)
Fixpoint pieces (s : list Z) : list (list Z) :=
  match s with
  | [] => [[]]
  | c :: t => match pieces t with
              | h :: r => if Z.eq_dec c 92 then [] :: h :: r else (c :: h) :: r
              | [] => []
              end
  end.
(** What is known of strings.EqualFold: a text is equal to itself, only the empty text to the empty text, likewise "." and "..", equal
    texts have equal pieces, and the colon is equal to itself only. *)
Record folds (same : list Z -> list Z -> bool) : Prop := {
  folds_refl : forall x, same x x = true;
  folds_nil : forall x, same x [] = true \/ same [] x = true -> x = [];
  folds_dots : forall x y, same x y = true -> (x = [46] <-> y = [46]) /\ (x = [46; 46] <-> y = [46; 46]);
  folds_pieces : forall s t, same s t = true -> Forall2 (fun x y => same x y = true) (pieces s) (pieces t);
  folds_colon : forall s t, same s t = true -> (In 58 s <-> In 58 t)
}.
(** Equality up to the case of ASCII letters. *)
Definition low (c : Z) : Z := if (65 <=? c) && (c <=? 90) then c + 32 else c.
Fixpoint ascii_fold (s t : list Z) : bool :=
  match s, t with
  | [], [] => true
  | c :: s, d :: t => (low c =? low d) && ascii_fold s t
  | _, _ => false
  end.
(** The same place up to case. *)
Definition alike (same : list Z -> list Z -> bool) (d e : list (list Z)) : Prop := Forall2 (fun x y => same y x = true) d e.
(** "C:/A/b", "c:\a\F\g", "../F/g". *)
Definition x_root : list Z := [67; 58; 47; 65; 47; 98].
Definition x_me : list Z := [99; 58; 92; 97; 92; 70; 92; 103].
Definition x_rel : list Z := [46; 46; 47; 70; 47; 103].
(** A path that leads down: wherever one is, to a place below. *)
Definition descends (s : list Z) : Prop := exists ds, forall p, leads p (slashed s) = ds ++ p.
(** A path that begins with two separators. *)
Definition two_seps (s : list Z) : Prop := exists a b t, s = a :: b :: t /\ sep a /\ sep b.

(** Strings and slices as lists of memory cells, independent of headers, blocks
    and offsets. *)
From Coq Require Import ZArith List Bool Arith.
From Verif Require Import GoBase UnsafeModel.
Import ListNotations.
Open Scope Z_scope.

(** A cell holds a byte and can be written or not; cells are numbered.  A slice is the
    list of its cells and the list of the spare cells behind them; a string is the
    list of its cells. *)
Record cst := CST { c_store : list (bool * Z); c_bytes : list (list nat * list nat); c_strs : list (list nat) }.

(** The bytes in these cells. *)
Definition read (st : list (bool * Z)) (cells : list nat) : list Z :=
  map (fun c => snd (nth c st (false, 0))) cells.
(** Writing to cells one after the other; [None] if one cannot be written. *)
Fixpoint write (st : list (bool * Z)) (cells : list nat) (vs : list Z) : option (list (bool * Z)) :=
  match cells, vs with
  | c :: cells, v :: vs =>
      match nth_error st c with
      | Some (true, _) => write (upd st c (true, v)) cells vs
      | _ => None
      end
  | _, _ => Some st
  end.
(** New cells with these bytes: the store and their numbers. *)
Definition fresh (st : list (bool * Z)) (rw : bool) (l : list Z) : list (bool * Z) * list nat :=
  (st ++ map (fun v => (rw, v)) l, seq (length st) (length l)).

(** A new slice with these bytes and spare cells. *)
Definition new_bytes (c : cst) (l : list Z) (extra : nat) : cst :=
  let '(st, cells) := fresh (c_store c) true l in
  let '(st, spare) := fresh st true (repeat 0 extra) in
  CST st (c_bytes c ++ [(cells, spare)]) (c_strs c).
(** A new string with this text. *)
Definition new_str (c : cst) (rw : bool) (l : list Z) : cst :=
  let '(st, cells) := fresh (c_store c) rw l in
  CST st (c_bytes c) (c_strs c ++ [cells]).
(** A further name for existing cells. *)
Definition add_bytes (c : cst) (x : list nat * list nat) : cst := CST (c_store c) (c_bytes c ++ [x]) (c_strs c).
Definition add_str (c : cst) (x : list nat) : cst := CST (c_store c) (c_bytes c) (c_strs c ++ [x]).

(** The operations.  StringBytes and BytesString give another name to the same cells;
    the bytes of a string have no spare cells. *)
Definition c_step (c : cst) (op : uop) : outcome (cst * uobs) :=
  match op with
  | UMake _ l extra => Ok (new_bytes c l extra, UNone)
  | ULit _ l => Ok (new_str c false l, UNone)
  | UCopyS _ b =>
      match nth_error (c_bytes c) b with
      | None => Ok (c, UNone)
      | Some (v, _) => Ok (new_str c true (read (c_store c) v), UNone)
      end
  | UCopyB _ x extra =>
      match nth_error (c_strs c) x with
      | None => Ok (c, UNone)
      | Some v => Ok (new_bytes c (read (c_store c) v) extra, UNone)
      end
  | UStringBytes x =>
      match nth_error (c_strs c) x with
      | None => Ok (c, UNone)
      | Some v => Ok (add_bytes c (v, []), UNone)
      end
  | UBytesString b =>
      match nth_error (c_bytes c) b with
      | None => Ok (c, UNone)
      | Some (v, _) => Ok (add_str c v, UNone)
      end
  | USubS x i j =>
      match nth_error (c_strs c) x with
      | None => Ok (c, UNone)
      | Some v => if (i <=? j)%nat && (j <=? length v)%nat
                  then Ok (add_str c (firstn (j - i) (skipn i v)), UNone) else Ok (c, UPan)
      end
  | USubB b i j =>
      match nth_error (c_bytes c) b with
      | None => Ok (c, UNone)
      | Some (v, sp) => if (i <=? j)%nat && (j <=? length (v ++ sp))%nat
                        then Ok (add_bytes c (firstn (j - i) (skipn i (v ++ sp)), skipn j (v ++ sp)), UNone)
                        else Ok (c, UPan)
      end
  | USet b i x =>
      match nth_error (c_bytes c) b with
      | None => Ok (c, UNone)
      | Some (v, _) =>
          match nth_error v i with
          | None => Ok (c, UPan)
          | Some cell => match write (c_store c) [cell] [x] with
                         | Some st => Ok (CST st (c_bytes c) (c_strs c), UNone)
                         | None => Panic
                         end
          end
      end
  | UAppend _ b vs extra =>
      match nth_error (c_bytes c) b with
      | None => Ok (c, UNone)
      | Some (v, sp) =>
          if (length vs <=? length sp)%nat then
            match write (c_store c) sp vs with
            | Some st => Ok (CST st (c_bytes c ++ [(v ++ firstn (length vs) sp, skipn (length vs) sp)]) (c_strs c), UNone)
            | None => Panic
            end
          else Ok (new_bytes c (read (c_store c) v ++ vs) extra, UNone)
      end
  | UGetS x =>
      match nth_error (c_strs c) x with
      | None => Ok (c, UNone)
      | Some v => Ok (c, UVal (read (c_store c) v))
      end
  | UGetB b =>
      match nth_error (c_bytes c) b with
      | None => Ok (c, UNone)
      | Some (v, _) => Ok (c, UVal (read (c_store c) v))
      end
  end.
Definition c_init : cst := CST [] [] [].

(** ** What a program sees of a value *)
Definition text (s : ust) (x : nat) (l : list Z) : Prop := u_step s (UGetS x) = Ok (s, UVal l).
Definition contents (s : ust) (b : nat) (l : list Z) : Prop := u_step s (UGetB b) = Ok (s, UVal l).
(** The number that the next slice or string will have. *)
Definition slices (s : ust) : nat := length (u_bytes s).
Definition strings (s : ust) : nat := length (u_strs s).

(** ** Families of values, read off the operations of a program
    A value made from scratch or by a copy starts a family; every other value belongs to the family of
    the value it was made from.  [f_lits]: the families that literals started. *)
Record fam := FAM { f_next : nat; f_bytes : list nat; f_strs : list nat; f_lits : list nat }.
Definition fam_step (t : fam) (e : uop * uobs) : fam :=
  let '(op, ob) := e in
  let start_b := FAM (S (f_next t)) (f_bytes t ++ [f_next t]) (f_strs t) (f_lits t) in
  let start_s lits := FAM (S (f_next t)) (f_bytes t) (f_strs t ++ [f_next t]) lits in
  let join_b f := FAM (f_next t) (f_bytes t ++ [f]) (f_strs t) (f_lits t) in
  let join_s f := FAM (f_next t) (f_bytes t) (f_strs t ++ [f]) (f_lits t) in
  match ob with
  | UPan => t
  | _ =>
      match op with
      | UMake _ _ _ => start_b
      | ULit _ _ => start_s (f_next t :: f_lits t)
      | UCopyS _ b => if (b <? length (f_bytes t))%nat then start_s (f_lits t) else t
      | UCopyB _ x _ => if (x <? length (f_strs t))%nat then start_b else t
      | UStringBytes x => match nth_error (f_strs t) x with Some f => join_b f | None => t end
      | UBytesString b => match nth_error (f_bytes t) b with Some f => join_s f | None => t end
      | USubS x _ _ => match nth_error (f_strs t) x with Some f => join_s f | None => t end
      | USubB b _ _ => match nth_error (f_bytes t) b with Some f => join_b f | None => t end
      | UAppend _ b _ _ => match nth_error (f_bytes t) b with Some f => join_b f | None => t end
      | USet _ _ _ | UGetS _ | UGetB _ => t
      end
  end.
Definition families (ops : list uop) (obs : list uobs) : fam :=
  fold_left fam_step (combine ops obs) (FAM 0 [] [] []).

(** String [x] has no slice in its family. *)
Definition unshared (t : fam) (x : nat) : Prop :=
  exists f, nth_error (f_strs t) x = Some f /\ ~ In f (f_bytes t).
(** Slice [b] belongs to the family of a literal. *)
Definition of_literal (t : fam) (b : nat) : Prop :=
  exists f, nth_error (f_bytes t) b = Some f /\ In f (f_lits t).

(** Where the compiler and the runtime put literals and everything else: below and above
    the address [first]. *)
Definition laid_out (first : Z) (op : uop) : Prop :=
  match op with
  | ULit a l => a + Z.of_nat (length l) <= first
  | UMake a _ _ | UCopyS a _ | UCopyB a _ _ | UAppend a _ _ _ => first <= a
  | _ => True
  end.
(** What Writeable says of slice [b]. *)
Definition says_writeable (first : Z) (s : ust) (b : nat) : option bool :=
  option_map (bytes_writeable first (u_blks s)) (nth_error (u_bytes s) b).
(** What Writeable says of string [x]. *)
Definition says_str_writeable (first : Z) (s : ust) (x : nat) : option bool :=
  option_map (str_writeable first (u_blks s)) (nth_error (u_strs s) x).

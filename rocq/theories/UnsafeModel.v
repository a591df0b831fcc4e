(** Model of unsafe/string.go: strings and byte slices as headers that point into
    blocks of memory. *)
From Coq Require Import ZArith List Bool Arith.
From Verif Require Import GoBase.
Import ListNotations.
Open Scope Z_scope.

(** A block of memory: its address, whether the program may write to it (literals
    lie in read-only memory), its bytes (Go language; no /repo lines). *)
Record block := Block { bk_addr : Z; bk_rw : bool; bk_data : list Z }.
(** reflect.SliceHeader (unsafe/string.go:50): the pointer is a block and an offset. *)
Record bhdr := BH { bh_blk : nat; bh_off : nat; bh_len : nat; bh_cap : nat }.
(** reflect.StringHeader (unsafe/string.go:51). *)
Record shdr := SH { sh_blk : nat; sh_off : nat; sh_len : nat }.
(** Memory and the slice and string values that the program has made; they are
    numbered in the order in which they were made (Go language; no /repo lines). *)
Record ust := UST { u_blks : list block; u_bytes : list bhdr; u_strs : list shdr }.

(** unsafe/string.go:49-54 StringBytes: same pointer, Len and Cap are the length of
    the string. *)
Definition string_bytes (s : shdr) : bhdr := BH (sh_blk s) (sh_off s) (sh_len s) (sh_len s).
(** unsafe/string.go:57-59 BytesString: the first two words of the slice header. *)
Definition bytes_string (b : bhdr) : shdr := SH (bh_blk b) (bh_off b) (bh_len b).

(** Bytes [off, off+len) of a block (Go language; no /repo lines). *)
Definition view (bs : list block) (k off len : nat) : list Z :=
  match nth_error bs k with
  | Some b => firstn len (skipn off (bk_data b))
  | None => []
  end.
(** The text of a string (Go language; no /repo lines). *)
Definition str_val (bs : list block) (s : shdr) : list Z := view bs (sh_blk s) (sh_off s) (sh_len s).
(** The bytes of a slice (Go language; no /repo lines). *)
Definition bytes_val (bs : list block) (b : bhdr) : list Z := view bs (bh_blk b) (bh_off b) (bh_len b).

(** Writing the bytes [vs] at [off] of block [k]; [None]: the memory is read-only and
    the program is killed.  Writing nothing is always possible
    (Go language; no /repo lines). *)
Definition poke (bs : list block) (k off : nat) (vs : list Z) : option (list block) :=
  match vs, nth_error bs k with
  | [], _ => Some bs
  | _, None => None
  | _, Some b =>
      if bk_rw b then
        Some (upd bs k (Block (bk_addr b) true
                (firstn off (bk_data b) ++ vs ++ skipn (off + length vs) (bk_data b))))
      else None
  end.

(** unsafe/string.go:62-65 StringPointer and 68-71 BytesPointer: the address of the
    first byte. *)
Definition address (bs : list block) (k off : nat) : Z :=
  match nth_error bs k with Some b => bk_addr b + Z.of_nat off | None => 0 end.
(** unsafe/string.go:23-26 Writeable; [first] is firstPointer (line 10). *)
Definition writeable (first addr : Z) : bool := first <=? addr.
(** unsafe/string.go:39-42 String.Writeable. *)
Definition str_writeable (first : Z) (bs : list block) (s : shdr) : bool :=
  writeable first (address bs (sh_blk s) (sh_off s)).
(** unsafe/string.go:29-32 Bytes.Writeable. *)
Definition bytes_writeable (first : Z) (bs : list block) (b : bhdr) : bool :=
  writeable first (address bs (bh_blk b) (bh_off b)).

(** What a program does with strings and slices.  Values are given by their numbers.
    Operations that allocate are given the address of the new block, and by how much
    the capacity of a new array exceeds the length: the runtime may choose both. *)
Inductive uop :=
| UMake (a : Z) (l : list Z) (extra : nat)  (* a new slice with these bytes *)
| ULit (a : Z) (l : list Z)                 (* a string literal *)
| UCopyS (a : Z) (b : nat)                  (* string(b) *)
| UCopyB (a : Z) (s : nat) (extra : nat)    (* []byte(s) *)
| UStringBytes (s : nat)                    (* unsafe/string.go:49 *)
| UBytesString (b : nat)                    (* unsafe/string.go:57 *)
| USubS (s i j : nat)                       (* s[i:j] *)
| USubB (b i j : nat)                       (* b[i:j] *)
| USet (b i : nat) (v : Z)                  (* b[i] = v *)
| UAppend (a : Z) (b : nat) (vs : list Z) (extra : nat) (* append(b, vs...) *)
| UGetS (s : nat)                           (* the text of s *)
| UGetB (b : nat).                          (* the bytes of b *)

(** What the program sees: nothing, a recoverable panic (index out of range), bytes
    (Go language; no /repo lines). *)
Inductive uobs := UNone | UPan | UVal (l : list Z).

(** One operation.  [Panic] stands for the death of the program by a write to
    read-only memory, which cannot be recovered.  Simplified: string(b) and []byte(s)
    always copy; memory is never freed.  Operations on values that were never made
    do nothing.
    unsafe/string.go:49-59 for StringBytes and BytesString; the rest is Go. *)
Definition u_step (s : ust) (op : uop) : outcome (ust * uobs) :=
  match op with
  | UMake a l extra =>
      Ok (UST (u_blks s ++ [Block a true (l ++ repeat 0 extra)])
              (u_bytes s ++ [BH (length (u_blks s)) 0 (length l) (length l + extra)]) (u_strs s), UNone)
  | ULit a l =>
      Ok (UST (u_blks s ++ [Block a false l]) (u_bytes s)
              (u_strs s ++ [SH (length (u_blks s)) 0 (length l)]), UNone)
  | UCopyS a b =>
      match nth_error (u_bytes s) b with
      | None => Ok (s, UNone)
      | Some h =>
          let l := bytes_val (u_blks s) h in
          Ok (UST (u_blks s ++ [Block a true l]) (u_bytes s)
                  (u_strs s ++ [SH (length (u_blks s)) 0 (length l)]), UNone)
      end
  | UCopyB a x extra =>
      match nth_error (u_strs s) x with
      | None => Ok (s, UNone)
      | Some h =>
          let l := str_val (u_blks s) h in
          Ok (UST (u_blks s ++ [Block a true (l ++ repeat 0 extra)])
                  (u_bytes s ++ [BH (length (u_blks s)) 0 (length l) (length l + extra)]) (u_strs s), UNone)
      end
  | UStringBytes x =>
      match nth_error (u_strs s) x with
      | None => Ok (s, UNone)
      | Some h => Ok (UST (u_blks s) (u_bytes s ++ [string_bytes h]) (u_strs s), UNone)
      end
  | UBytesString b =>
      match nth_error (u_bytes s) b with
      | None => Ok (s, UNone)
      | Some h => Ok (UST (u_blks s) (u_bytes s) (u_strs s ++ [bytes_string h]), UNone)
      end
  | USubS x i j =>
      match nth_error (u_strs s) x with
      | None => Ok (s, UNone)
      | Some h =>
          if (i <=? j)%nat && (j <=? sh_len h)%nat
          then Ok (UST (u_blks s) (u_bytes s) (u_strs s ++ [SH (sh_blk h) (sh_off h + i) (j - i)]), UNone)
          else Ok (s, UPan)
      end
  | USubB b i j =>
      match nth_error (u_bytes s) b with
      | None => Ok (s, UNone)
      | Some h =>
          if (i <=? j)%nat && (j <=? bh_cap h)%nat
          then Ok (UST (u_blks s) (u_bytes s ++ [BH (bh_blk h) (bh_off h + i) (j - i) (bh_cap h - i)]) (u_strs s), UNone)
          else Ok (s, UPan)
      end
  | USet b i v =>
      match nth_error (u_bytes s) b with
      | None => Ok (s, UNone)
      | Some h =>
          if (i <? bh_len h)%nat then
            match poke (u_blks s) (bh_blk h) (bh_off h + i) [v] with
            | Some bs => Ok (UST bs (u_bytes s) (u_strs s), UNone)
            | None => Panic
            end
          else Ok (s, UPan)
      end
  | UAppend a b vs extra =>
      match nth_error (u_bytes s) b with
      | None => Ok (s, UNone)
      | Some h =>
          if (bh_len h + length vs <=? bh_cap h)%nat then
            match poke (u_blks s) (bh_blk h) (bh_off h + bh_len h) vs with
            | Some bs => Ok (UST bs (u_bytes s ++ [BH (bh_blk h) (bh_off h) (bh_len h + length vs) (bh_cap h)]) (u_strs s), UNone)
            | None => Panic
            end
          else
            let l := bytes_val (u_blks s) h ++ vs in
            Ok (UST (u_blks s ++ [Block a true (l ++ repeat 0 extra)])
                    (u_bytes s ++ [BH (length (u_blks s)) 0 (length l) (length l + extra)]) (u_strs s), UNone)
      end
  | UGetS x =>
      match nth_error (u_strs s) x with
      | None => Ok (s, UNone)
      | Some h => Ok (s, UVal (str_val (u_blks s) h))
      end
  | UGetB b =>
      match nth_error (u_bytes s) b with
      | None => Ok (s, UNone)
      | Some h => Ok (s, UVal (bytes_val (u_blks s) h))
      end
  end.

(** Nothing made yet (Go language; no /repo lines). *)
Definition u_init : ust := UST [] [] [].

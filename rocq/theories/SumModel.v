(** Model of package hash: finger_print.go, none_hash.go, hash.go. *)
From Coq Require Import String ZArith List Bool.
From Verif Require Import GoBase GoStrings ConcBase MathModel FsModel.
Import ListNotations.
Open Scope Z_scope.

(** Reduction to an int64 (Go language; no /repo lines). *)
Definition i64 (z : Z) : Z := (z + 2 ^ 63) mod 2 ^ 64 - 2 ^ 63.

(** hash/finger_print.go:10-13 Fingerprint. A hash of the standard library is the
    bytes written to it since it was made or reset. *)
Record fprint := FPrint { fp_1 : list Z; fp_2 : list Z; fp_3 : list Z; fp_size : Z }.
(** hash/finger_print.go:15-21 NewFingerprint. *)
Definition fp_new : fprint := FPrint [] [] [] 0.

(** Calls of a Fingerprint (hash/finger_print.go:27, 31, 36, 50, 62, 68, 72). *)
Inductive fp_op := FWrite (p : list Z) | FReset | FResetsize (n : Z) | FSum (b : list Z) | FString | FSize | FBlockSize.
(** What they return; the error of Write is always nil. *)
Inductive fp_obs := ONone | ONum (z : Z) | OBytes (l : list Z).

(** The loops of hash/finger_print.go:53-55 and hash/none_hash.go:33-35: the last
    [k] bytes of [v], the highest first. *)
Fixpoint be_bytes (k : nat) (v : Z) : list Z :=
  match k with
  | O => []
  | S k => Z.land (Z.shiftr v (Z.of_nat k * 8)) 255 :: be_bytes k v
  end.

Section Fingerprint.
  (** MD5, SHA1 and CRC64 (called at hash/finger_print.go:17-19), functions of the
      bytes written. *)
  Variables H1 H2 H3 : list Z -> list Z.
  (** One call. hash/finger_print.go:27-29 Resetsize, 31-34 String, 36-48 Write
      (the standard hashes return no error and the length), 50-60 Sum, 62-66
      Reset, 68-70 Size, 72-74 BlockSize. *)
  Definition fp_step (s : fprint) (op : fp_op) : outcome (fprint * fp_obs) :=
    match op with
    | FWrite p =>
        let n := zlen p in
        Ok (FPrint (fp_1 s ++ p) (fp_2 s ++ p) (fp_3 s ++ p) (i64 (fp_size s + n)), ONum n)
    | FReset => Ok (FPrint [] [] [] (fp_size s), ONone)
    | FResetsize n => Ok (FPrint (fp_1 s) (fp_2 s) (fp_3 s) n, ONone)
    | FSum b =>
        let size := Z.land (fp_size s) (2 ^ 48 - 1) in
        x <- zslice (H1 (fp_1 s)) 4 10 ;;
        y <- zslice (H2 (fp_2 s)) 7 13 ;;
        z <- zslice (H3 (fp_3 s)) 1 7 ;;
        Ok (s, OBytes (be_bytes 6 size ++ x ++ y ++ z))
    | FString =>
        x <- zslice (H1 (fp_1 s)) 4 10 ;;
        y <- zslice (H2 (fp_2 s)) 7 13 ;;
        z <- zslice (H3 (fp_3 s)) 1 7 ;;
        Ok (s, OBytes (hex_num 12 (Z.land (fp_size s) (2 ^ 48 - 1)) ++ 45 :: hex_bytes x ++ 45 :: hex_bytes y ++ 45 :: hex_bytes z))
    | FSize => Ok (s, ONum (fp_size s))
    | FBlockSize => Ok (s, ONum 24)
    end.
End Fingerprint.

Section Methods.
  (** The checksum functions of the standard library by method: 1 MD5, 2 SHA1, 3
      SHA256, 4 SHA512, 5 CRC32, 6 CRC64 (hash/hash.go:15-26). *)
  Variable H : Z -> list Z -> list Z.
  (** A hash made by New: of the standard library, a Fingerprint, or a NoneHash with
      its id (hash/hash.go:33-55, hash/none_hash.go:13-15). *)
  Inductive hobj := HStd (m : Z) (d : list Z) | HFp (f : fprint) | HNone (id : Z).
  (** hash/hash.go:33-55 New, hash/none_hash.go:17-20 NewNoneHash; [gid] is the
      variable gId, a uint32. *)
  Definition hash_new (gid m : Z) : outcome (Z * hobj) :=
    if (1 <=? m) && (m <=? 6) then Ok (gid, HStd m [])
    else if m =? 7 then Ok (gid, HFp fp_new)
    else if m =? 0 then let g := wrap 32 (gid + 1) in Ok (g, HNone g)
    else Panic.
  (** Write of each of them, and what it returns: hash/none_hash.go:26-28 returns 0. *)
  Definition hobj_write (h : hobj) (p : list Z) : outcome (hobj * Z) :=
    match h with
    | HStd m d => Ok (HStd m (d ++ p), zlen p)
    | HFp f => r <- fp_step (H 1) (H 2) (H 6) f (FWrite p) ;;
               match r with (f, ONum n) => Ok (HFp f, n) | _ => Panic end
    | HNone id => Ok (h, 0)
    end.
  (** Sum(nil) of each of them: hash/none_hash.go:30-37. *)
  Definition hobj_sum (h : hobj) : outcome (list Z) :=
    match h with
    | HStd m d => Ok (H m d)
    | HFp f => r <- fp_step (H 1) (H 2) (H 6) f (FSum []) ;;
               match r with (_, OBytes l) => Ok l | _ => Panic end
    | HNone id => Ok (be_bytes 4 id)
    end.
  (** hash/hash.go:67-73 StringHash; new gId and result. *)
  Definition string_hash (gid m : Z) (s : list Z) : outcome (Z * list Z) :=
    r <- hash_new gid m ;;
    let '(g, h) := r in
    w <- hobj_write h s ;;
    d <- hobj_sum (fst w) ;;
    Ok (g, hex_bytes d).
  (** hash/hash.go:58-64 StringHashL. *)
  Definition string_hash_l (gid m : Z) (s : list Z) : outcome (Z * list Z) :=
    r <- hash_new gid m ;;
    let '(g, h) := r in
    w <- hobj_write h s ;;
    d <- hobj_sum (fst w) ;;
    Ok (g, fmt_0d 10 (snd w) ++ 45 :: hex_bytes d).
End Methods.

(** NewNoneHash called by several goroutines: the variable gId is loaded, stored
    and loaded again without synchronization (hash/none_hash.go:18-19). *)
Inductive nh_pc := NIdle | NLoad | NStore (v : Z) | NReload | NRet (id : Z).
(** The variable and the goroutines. *)
Record nh_state := NH { nh_gid : Z; nh_pcs : nat -> nh_pc }.
(** hash/none_hash.go:9-11, no call running. *)
Definition nh_init : nh_state := NH 0 (fun _ => NIdle).
(** One step of goroutine [t] (hash/none_hash.go:17-20). *)
Definition nh_step (s : nh_state) (t : nat) (op : unit) : nh_state * list (ext unit Z) :=
  match nh_pcs s t with
  | NIdle => (NH (nh_gid s) (fupd (nh_pcs s) t NLoad), [Inv t tt])
  | NLoad => (NH (nh_gid s) (fupd (nh_pcs s) t (NStore (nh_gid s))), [])
  | NStore v => (NH (wrap 32 (v + 1)) (fupd (nh_pcs s) t NReload), [])
  | NReload => (NH (nh_gid s) (fupd (nh_pcs s) t (NRet (nh_gid s))), [])
  | NRet id => (NH (nh_gid s) (fupd (nh_pcs s) t NIdle), [Ret t tt id])
  end.

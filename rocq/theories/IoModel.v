(** Model of io/io.go. Sources and destinations are other packages' objects;
    what is assumed of them is said where they are defined. *)
From Coq Require Import ZArith List Bool.
From Verif Require Import GoBase.
Import ListNotations.
Open Scope Z_scope.

(** io.ErrShortWrite, or an error of a source or destination
    (standard library; used at io/io.go:45). *)
Inductive ioerr := ErrShort | ErrUser (e : Z).

(** A source that is only an io.Reader: the bytes still to come, how it splits
    them (each entry: at most how many bytes the call gives, and whether the end
    is reported together with the last bytes; when the list is used up a call
    fills the buffer), and how it ends: [None] with io.EOF, [Some e] with that
    error (the Read of io/io.go:29). *)
Record source := Source { sr_data : list Z; sr_plan : list (nat * bool); sr_end : option Z }.
(** The error of one Read: none, io.EOF or another (io/io.go:29). *)
Inductive rerr := RNil | REof | RErr (e : Z).
(** One Read into a buffer of [blen] bytes (io/io.go:29). *)
Definition src_read (blen : nat) (s : source) : source * list Z * rerr :=
  let '(k, early, rest) := match sr_plan s with [] => (blen, false, []) | (k, e) :: r => (k, e, r) end in
  let n := Nat.min k (Nat.min blen (length (sr_data s))) in
  let d := skipn n (sr_data s) in
  let at_end := match d with [] => (n =? 0)%nat || early | _ => false end in
  (Source d rest (sr_end s), firstn n (sr_data s),
   if at_end then match sr_end s with None => REof | Some e => RErr e end else RNil).

(** A destination: what it has received, and what its next calls do: [WAll] takes
    everything, [WFail n e] takes at most [n] bytes and returns the error, [WLie n]
    takes at most [n] bytes and returns no error, which io.Writer forbids when it
    is short. When the list is used up it takes everything (the Write of
    io/io.go:33). *)
Inductive wresp := WAll | WFail (n : nat) (e : Z) | WLie (n : nat).
(** See above. *)
Record dest := Dest { ds_got : list Z; ds_plan : list wresp }.
(** One Write: the count and the error (io/io.go:33). *)
Definition dst_write (p : list Z) (d : dest) : dest * (nat * option Z) :=
  match ds_plan d with
  | [] => (Dest (ds_got d ++ p) [], (length p, None))
  | WAll :: r => (Dest (ds_got d ++ p) r, (length p, None))
  | WFail n e :: r => (Dest (ds_got d ++ firstn n p) r, (length (firstn n p), Some e))
  | WLie n :: r => (Dest (ds_got d ++ firstn n p) r, (length (firstn n p), None))
  end.

(** io/io.go:31-37: one chunk to each destination in turn, up to the first error;
    [nw] is the count of the last Write (zero before the first). *)
Fixpoint write_each (p : list Z) (nw : nat) (ds : list dest) : list dest * nat * option Z :=
  match ds with
  | [] => ([], nw, None)
  | d :: t =>
      let '(d', (n, e)) := dst_write p d in
      match e with
      | Some e => (d' :: t, n, Some e)
      | None => let '(t', n', e') := write_each p n t in (d' :: t', n', e')
      end
  end.

(** io/io.go:28-54, the loop, with at most [fuel] Reads; [Diverge] when more are
    needed. The byte count is not reduced modulo 2^64. *)
Fixpoint copy_loop (fuel : nat) (blen : nat) (s : source) (ds : list dest) (written : Z)
  : outcome (source * list dest * Z * option ioerr) :=
  match fuel with
  | O => Diverge
  | S f =>
      let '(s1, p, er) := src_read blen s in
      let after ds written :=
        match er with
        | RNil => copy_loop f blen s1 ds written
        | REof => Ok (s1, ds, written, None)
        | RErr e => Ok (s1, ds, written, Some (ErrUser e))
        end in
      if (0 <? length p)%nat then
        let '(ds1, nw, ew) := write_each p 0 ds in
        match ew with
        | Some e => Ok (s1, ds1, written, Some (ErrUser e))
        | None =>
            let written := written + Z.of_nat nw in
            if (length p =? nw)%nat then after ds1 written else Ok (s1, ds1, written, Some ErrShort)
        end
      else after ds written
  end.

(** io/io.go:14-55 CopysBuffer of a plain reader; [None] is a nil buffer (25-27).
    The fuel covers every run that ends (IoProofs). *)
Definition copys_plain (s : source) (buf : option nat) (ds : list dest) : outcome (source * list dest * Z * option ioerr) :=
  let blen := match buf with None => Z.to_nat 32768 | Some n => n end in
  copy_loop (length (sr_plan s) + length (sr_data s) + 2) blen s ds 0.
(** io/io.go:8-11 Copys. *)
Definition copys (s : source) (ds : list dest) : outcome (source * list dest * Z * option ioerr) := copys_plain s None ds.

(** WriteTo of a source that also is an io.WriterTo, as bytes.Buffer,
    bytes.Reader and strings.Reader have it: nothing left gives (0, nil),
    otherwise one Write of all that is left, which is consumed as far as it was
    taken; a short count without error becomes io.ErrShortWrite
    (standard library; called at io/io.go:17). *)
Definition write_to (data : list Z) (d : dest) : list Z * dest * (Z * option ioerr) :=
  match data with
  | [] => ([], d, (0, None))
  | _ =>
      let '(d', (n, e)) := dst_write data d in
      (skipn n data, d',
       (Z.of_nat n, match e with
                    | Some e => Some (ErrUser e)
                    | None => if (n =? length data)%nat then None else Some ErrShort
                    end))
  end.
(** io/io.go:15-22: the branch for an io.WriterTo. *)
Fixpoint copys_writer_to (data : list Z) (ds : list dest) (written : Z) (err : option ioerr)
  : list Z * list dest * Z * option ioerr :=
  match ds with
  | [] => (data, [], written, err)
  | d :: t =>
      let '(data', d', (n, e)) := write_to data d in
      match e with
      | Some _ => (data', d' :: t, n, e)
      | None => let '(data'', t', w, e') := copys_writer_to data' t n None in (data'', d' :: t', w, e')
      end
  end.

(** The objects and texts of package regable (regable/reg.go, regable/regable.go). *)
From Coq Require Import String.
From Coq Require Import ZArith List Bool.
From Verif Require Import GoBase GoStrings MathModel RegModel.
Import ListNotations.
Open Scope Z_scope.

(** regable/reg.go:368-370 Uint32Obj: nil or the record with that number of the reger with that number (records are never removed or
    replaced: 142). *)
Definition obj : Type := option (nat * nat).
(** The record an object points to (regable/reg.go:368-370). *)
Definition rec_at (s : regs) (p : nat * nat) : outcome rrec := rg <- aget (rs_list s) (fst p) ;; aget (rg_list rg) (snd p).

(** Calls: those on ids and regers (RegModel.v); regable/reg.go:414-431 RegO (MustRegO), 277-283 Oject, 373-375 Valid, 378-380 Get, 383-385
    GetNoErr, 388-390 Set, 404-406 Name, 409-411 Id, 398-400 String of an object; 221-227 GetNoErr and 253-262 String of an id; 157-171
    String of a reger; 83-92 ShowAllUint32Regers; regable/regable.go:46-55 ShowAllRegs. *)
Inductive ro_op := RBase (op : rg_op) | RRegO (g : Z) (name : list Z) (val : Z) | RObject (id : Z)
  | OValid (o : obj) | OGet (o : obj) | OGetNoErr (o : obj) | OSet (o : obj) (v : Z) | OName (o : obj) | OId (o : obj) | OString (o : obj)
  | IGetNoErr (id : Z) | IString (id : Z) | GString (g : Z) | GShowRegers | GShowAll.
(** Results. *)
Inductive ro_res := RRes (r : rg_res) | RObj (o : obj) | RNum (v : Z) | RText (t : list Z).

(** regable/reg.go:355-365 String of a record that is not nil. *)
Definition rec_text (r : rrec) : list Z :=
  let (a, b) := reged_ids (rc_id r) in
  bytes_of "Uint32#(" ++ fmt_d a ++ bytes_of "|" ++ fmt_d b ++ bytes_of "|" ++ rc_name r ++ bytes_of ")" ++ fmt_d (rc_val r).
(** regable/reg.go:162-169: the lines of the records from number [i] on. *)
Fixpoint rec_lines (i : Z) (l : list rrec) : list Z :=
  match l with
  | [] => []
  | r :: t => [10] ++ bytes_of "#" ++ fmt_d (wrap 32 (wrap 32 (wrap 32 i + 0) + 1)) ++ bytes_of " [" ++ rc_name r ++ bytes_of "]: " ++ fmt_d (rc_val r) ++
              rec_lines (i + 1) t
  end.
(** math/range_uint32.go:125-129 String. *)
Definition range_text (r : range) : list Z :=
  bytes_of "RangeUint32{val:" ++ fmt_d (rval r) ++ bytes_of " min:" ++ fmt_d (rmin r) ++ bytes_of " max:" ++ fmt_d (rmax r) ++ bytes_of "}".
(** regable/reg.go:157-171 String of a reger. *)
Definition reger_text (p : reger) : list Z :=
  bytes_of "[Uint32Reger#" ++ fmt_d (rg_id p) ++ bytes_of ": " ++ rg_name p ++ bytes_of "] ids:" ++ range_text (rg_gen p) ++ rec_lines 0 (rg_list p).
(** regable/reg.go:83-92 ShowAllUint32Regers. *)
Definition regers_text (s : regs) : list Z :=
  bytes_of "[Uint32Regers] count:" ++ fmt_d (zlen (rs_list s)) ++ flat_map (fun p => [10] ++ reger_text p) (rs_list s).
(** regable/regable.go:46-55 ShowAllRegs; regable/reg.go:46-48: the only function registered is ShowAllUint32Regers. *)
Definition all_text (s : regs) : list Z :=
  bytes_of "[regable] locked:" ++ bytes_of (if rs_locked s then "true" else "false") ++ [10] ++ regers_text s.

(** The calls; the lines are those given at [ro_op].  287-296 Name, 299-308 Get, 311-318 GetNoErr, 321-331 Set, 347-352 Id, 355-365 String of a
    record (regable/reg.go). *)
Definition ro_step (s : regs) (op : ro_op) : outcome (regs * ro_res) :=
  match op with
  | RBase op => ' (s', r) <- rg_step s op ;; Ok (s', RRes r)
  | RRegO g name val =>
      ' (s1, r) <- rg_step s (GReg g name val) ;;
      match r with
      | GId id => ' (i, j, _, ok) <- reg_get s1 id ;; Ok (s1, RObj (if ok then Some (i, j) else None))
      | _ => Panic
      end
  | RObject id => ' (i, j, _, ok) <- reg_get s id ;; Ok (s, RObj (if ok then Some (i, j) else None))
  | OValid o => Ok (s, RRes (GBool (match o with Some _ => true | None => false end)))
  | OGet None => Ok (s, RRes (GVal 0 false))
  | OGet (Some p) => r <- rec_at s p ;; Ok (s, RRes (GVal (rc_val r) true))
  | OGetNoErr None => Panic
  | OGetNoErr (Some p) => r <- rec_at s p ;; Ok (s, RNum (rc_val r))
  | OSet None v => Ok (s, RRes (GVal 0 false))
  | OSet (Some (i, j)) v =>
      p <- aget (rs_list s) i ;;
      r <- aget (rg_list p) j ;;
      recs <- aset (rg_list p) j (RRec (rc_name r) v (rc_id r)) ;;
      l <- aset (rs_list s) i (Reger (rg_id p) (rg_name p) (rg_gen p) recs) ;;
      Ok (Regs (rs_locked s) (rs_gen s) l, RRes (GVal v true))
  | OName None => Ok (s, RRes (GStr [] false))
  | OName (Some p) => r <- rec_at s p ;; Ok (s, RRes (GStr (rc_name r) true))
  | OId None => Ok (s, RRes (GId 0))
  | OId (Some p) => r <- rec_at s p ;; Ok (s, RRes (GId (rc_id r)))
  | OString None => Ok (s, RText (bytes_of "invalid uint32 object"))
  | OString (Some p) => r <- rec_at s p ;; Ok (s, RText (rec_text r))
  | IGetNoErr id => ' (_, _, r, ok) <- reg_get s id ;; if ok then Ok (s, RNum (rc_val r)) else Panic
  | IString id =>
      ' (_, _, r, ok) <- reg_get s id ;;
      let (a, b) := reged_ids id in
      Ok (s, RText (if ok then rec_text r else bytes_of "invalid Uint32Id#(" ++ fmt_d a ++ bytes_of "|" ++ fmt_d b ++ bytes_of ")"))
  | GString g => p <- zget (rs_list s) g ;; Ok (s, RText (reger_text p))
  | GShowRegers => Ok (s, RText (regers_text s))
  | GShowAll => Ok (s, RText (all_text s))
  end.

(** Models of regable/gp/mapping.gp.go, regable/regable.go, regable/reg.go and
    errors/*.go. *)
From Coq Require Import String.
From Coq Require Import ZArith List Bool.
From Verif Require Import GoBase GoMap GoStrings MathModel.
Import ListNotations.
Open Scope Z_scope.

(** ** Key-value mapping *)
(** regable/gp/mapping.gp.go:36-39; [None] is a nil map. Keys and values are
    integers standing for any comparable types. *)
Record mapping := Mapping { mp_normal : option (list (Z * Z)); mp_reverse : option (list (Z * Z)) }.
(** The zero value of that struct (Go language; regable/gp/mapping.gp.go:44). *)
Definition mp_zero : mapping := Mapping None None.
(** Lookup in a map that may be nil (Go language; no /repo lines). *)
Definition nfind (k : Z) (m : option (list (Z * Z))) : option Z :=
  match m with None => None | Some m => mfind Z.eqb k m end.
(** Deletion from a map that may be nil (Go language; no /repo lines). *)
Definition ndel (k : Z) (m : option (list (Z * Z))) : option (list (Z * Z)) :=
  match m with None => None | Some m => Some (mdel Z.eqb k m) end.
(** Assignment to a nil map panics (Go language; no /repo lines). *)
Definition nset (k v : Z) (m : option (list (Z * Z))) : outcome (option (list (Z * Z))) :=
  match m with None => Panic | Some m => Ok (Some (mset Z.eqb k v m)) end.

(** Calls (regable/gp/mapping.gp.go:49-104). *)
Inductive mp_op := MInit | MInsert (k v : Z) | MRemoveByKey (k : Z) | MRemoveByValue (v : Z)
  | MFind (k : Z) | MReverseFind (v : Z) | MClear.
(** Results: an error of Insert comes with the zero id
    (regable/gp/mapping.gp.go:55-67). *)
Inductive mp_res := MUnit | MId (k : Z) | MDupKey | MDupValue | MBool (b : bool) | MFound (v : Z) (ok : bool).

(** regable/gp/mapping.gp.go:49-52 Init, 55-67 Insert, 70-77 RemoveByKey, 80-87
    RemoveByValue, 90-93 Find, 96-99 ReverseFind, 102-104 Clear. *)
Definition mp_step (s : mapping) (op : mp_op) : outcome (mapping * mp_res) :=
  match op with
  | MInit | MClear => Ok (Mapping (Some []) (Some []), MUnit)
  | MInsert k v =>
      match nfind k (mp_normal s) with
      | Some _ => Ok (s, MDupKey)
      | None =>
          match nfind v (mp_reverse s) with
          | Some _ => Ok (s, MDupValue)
          | None =>
              n <- nset k v (mp_normal s) ;;
              r <- nset v k (mp_reverse s) ;;
              Ok (Mapping n r, MId k)
          end
      end
  | MRemoveByKey k =>
      match nfind k (mp_normal s) with
      | Some v => Ok (Mapping (ndel k (mp_normal s)) (ndel v (mp_reverse s)), MBool true)
      | None => Ok (s, MBool false)
      end
  | MRemoveByValue v =>
      match nfind v (mp_reverse s) with
      | Some k => Ok (Mapping (ndel k (mp_normal s)) (ndel v (mp_reverse s)), MBool true)
      | None => Ok (s, MBool false)
      end
  | MFind k => Ok (s, match nfind k (mp_normal s) with Some v => MFound v true | None => MFound 0 false end)
  | MReverseFind v => Ok (s, match nfind v (mp_reverse s) with Some k => MFound k true | None => MFound 0 false end)
  end.

(** ** Registered ids *)
(** regable/regable.go:72-74 MakeRegedId (uint32 arithmetic; 19: the mask is
    2^24 - 1). *)
Definition make_reged_id (reger_id real_id : Z) : Z :=
  Z.lor (wrap 32 (Z.shiftl reger_id 24)) (Z.land real_id 16777215).
(** regable/regable.go:75-79 ids. *)
Definition reged_ids (cp : Z) : Z * Z := (Z.shiftr cp 24, Z.land cp 16777215).

(** ** Registry of values *)
(** regable/reg.go:173-178 _uint32Record; names are byte strings. *)
Record rrec := RRec { rc_name : list Z; rc_val : Z; rc_id : Z }.
(** regable/reg.go:95-100 Uint32Reger. *)
Record reger := Reger { rg_id : Z; rg_name : list Z; rg_gen : range; rg_list : list rrec }.
(** The package state: regable/regable.go:26 g_reg_locked, regable/reg.go:37
    g_u32_rgr_id_gen, 43 g_u32_reger_list. *)
Record regs := Regs { rs_locked : bool; rs_gen : range; rs_list : list reger }.
(** The state after package initialisation (the same lines). *)
Definition regs_init : regs := Regs false (Range 1 0 255) [].

(** regable/reg.go:189-201 Uint32Id.get: reger number, record number, record and
    whether the error is nil. *)
Definition reg_get (s : regs) (cp : Z) : outcome (nat * nat * rrec * bool) :=
  let (idrgr, id) := reged_ids cp in
  let idregidx := wrap 32 (idrgr - 0 - 1) in
  let idx := wrap 32 (id - 0 - 1) in
  let ok := negb ((idrgr =? 0) || negb (in_current_range (rs_gen s) idrgr)) in
  rg <- zget (rs_list s) idregidx ;;
  let ok := ok && negb ((id =? 0) || negb (in_current_range (rg_gen rg) id)) in
  r <- zget (rg_list rg) idx ;;
  Ok (Z.to_nat idregidx, Z.to_nat idx, r, ok).

(** Calls; a *Uint32Reger is its position in g_u32_reger_list
    (regable/reg.go:51-296, regable/regable.go:57-59). *)
Inductive rg_op :=
  | GNew (name : list Z) | GMaxReg (g : Z) (m : Z) | GReg (g : Z) (name : list Z) (val : Z) | GFinish
  | GValid (id : Z) | GGet (id : Z) | GSet (id v : Z) | GName (id : Z) | GIds (id : Z) | GObjId (id : Z).
(** Results. *)
Inductive rg_res := GUnit | GHandle (g : Z) | GLimit (m : Z) (ok : bool) | GId (id : Z) | GBool (b : bool)
  | GVal (v : Z) (ok : bool) | GStr (s : list Z) (ok : bool) | GPair (a b : Z).

(** regable/reg.go:51-71 NewUint32Reger with 102-110 init, 113-123 MaxReg with
    regable/regable.go:36-41, regable/reg.go:126-145 Reg with 180-185 new_rec,
    regable/regable.go:57-68 FinishReg and check_lock, regable/reg.go:204-209
    Valid, 212-218 Get, 230-236 Set, 248-250 Ids, 266-274 Name, 277-283 Oject
    followed by 347-352, 409-411 Id. *)
Definition rg_step (s : regs) (op : rg_op) : outcome (regs * rg_res) :=
  match op with
  | GNew name =>
      if rs_locked s then Panic else
      let (gen, r) := range_inc 32 (rs_gen s) in
      if negb (snd r) then Panic else
      let p := Reger (wrap 8 (fst r)) name (Range 1 0 1024) [] in
      Ok (Regs (rs_locked s) gen (rs_list s ++ [p]), GHandle (zlen (rs_list s)))
  | GMaxReg g m =>
      p <- zget (rs_list s) g ;;
      if (m <? 1) || (16777215 <? m) then Ok (s, GLimit 0 false) else
      let (gen, ok) := range_init (rg_gen p) (rval (rg_gen p)) (rmin (rg_gen p)) m in
      if negb ok then Ok (s, GLimit 0 false) else
      l <- zset (rs_list s) g (Reger (rg_id p) (rg_name p) gen (rg_list p)) ;;
      Ok (Regs (rs_locked s) (rs_gen s) l, GLimit (rmax gen) true)
  | GReg g name val =>
      p <- zget (rs_list s) g ;;
      if rs_locked s then Panic else
      let (gen, r) := range_inc 32 (rg_gen p) in
      if negb (snd r) then Panic else
      l <- zset (rs_list s) g (Reger (rg_id p) (rg_name p) gen (rg_list p ++ [RRec name val (fst r)])) ;;
      Ok (Regs (rs_locked s) (rs_gen s) l, GId (make_reged_id (rg_id p) (fst r)))
  | GFinish => Ok (Regs true (rs_gen s) (rs_list s), GUnit)
  | GValid cp => ' (_, _, _, ok) <- reg_get s cp ;; Ok (s, GBool ok)
  | GGet cp => ' (_, _, r, ok) <- reg_get s cp ;; Ok (s, if ok then GVal (rc_val r) true else GVal 0 false)
  | GSet cp v =>
      ' (i, j, r, ok) <- reg_get s cp ;;
      if negb ok then Ok (s, GVal 0 false) else
      p <- aget (rs_list s) i ;;
      recs <- aset (rg_list p) j (RRec (rc_name r) v (rc_id r)) ;;
      l <- aset (rs_list s) i (Reger (rg_id p) (rg_name p) (rg_gen p) recs) ;;
      Ok (Regs (rs_locked s) (rs_gen s) l, GVal v true)
  | GName cp => ' (_, _, r, ok) <- reg_get s cp ;; Ok (s, if ok then GStr (rc_name r) true else GStr [] false)
  | GIds cp => let (a, b) := reged_ids cp in Ok (s, GPair a b)
  | GObjId cp => ' (_, _, r, ok) <- reg_get s cp ;; Ok (s, GId (if ok then rc_id r else 0))
  end.

(** ** Error ids *)
(** errors/errors.go:53-58 g_id2err and g_id_cur_max. *)
Record errs := Errs { er_names : list (list Z); er_cur : Z }.
(** errors/errors.go:60-65. *)
Definition g_id_min : Z := 1001.
(** errors/errors.go:60-65. *)
Definition g_id_max : Z := 9999.
(** errors/errors.go:83-98 Reg; the flag is whether the error is nil. *)
Definition err_reg (s : errs) (name : list Z) : errs * (Z * bool) :=
  if er_cur s <? g_id_max
  then let cur := wrap 32 (er_cur s + 1) in (Errs (er_names s ++ [name]) cur, (cur, true))
  else (s, (g_id_min - 1, false)).
(** Package initialisation: errors/errors.go:55-57 the variables, 50 ERRID_STD,
    then 40-42 init. State and ERRID_STD. *)
Definition err_start : errs * Z :=
  let (s, r) := err_reg (Errs [] (g_id_min - 1)) (bytes_of "standard error") in
  (Errs [bytes_of "unknown error"] (er_cur s), fst r).
(** errors/errors.go:123-128 valid. *)
Definition err_valid (s : errs) (id : Z) : bool := (g_id_min <=? id) && (id <=? er_cur s).
(** errors/errors.go:112-122 Get. *)
Definition err_get (s : errs) (id : Z) : outcome (list Z * bool) :=
  if err_valid s id then name <- zget (er_names s) (wrap 32 (id - g_id_min)) ;; Ok (name, true)
  else Ok ([], false).
(** errors/errors.go:123-128: the text of the error of valid. *)
Definition err_invalid (id : Z) : list Z := bytes_of "invalid error id:" ++ fmt_d id.
(** errors/errors.go:129-136 String (and errors/with_id.go:10-12 Error). *)
Definition err_string (s : errs) (id : Z) : outcome (list Z) :=
  ' (name, ok) <- err_get s id ;;
  Ok (if ok then bytes_of "error#" ++ fmt_d id ++ bytes_of " (" ++ name ++ bytes_of ")" else err_invalid id).
(** errors/with_id_string.go:17-24 Error of an error made by Newf with text
    [msg]. *)
Definition err_text (s : errs) (id : Z) (msg : list Z) : outcome (list Z) :=
  ' (name, ok) <- err_get s id ;;
  Ok (if ok then bytes_of "error#" ++ fmt_d id ++ bytes_of " (" ++ name ++ bytes_of "): " ++ msg else err_invalid id).
(** errors/errors.go:104-107: the loop of ShowAll from [id] on. *)
Fixpoint err_show_loop (fuel : nat) (s : errs) (id : Z) (buf : list Z) : outcome (list Z) :=
  if id <=? er_cur s then
    match fuel with
    | O => Diverge
    | S f => t <- err_string s id ;; err_show_loop f s (wrap 32 (id + 1)) (buf ++ [10] ++ t)
    end
  else Ok buf.
(** errors/errors.go:100-109 ShowAll. *)
Definition err_show_all (s : errs) : outcome (list Z) :=
  err_show_loop (length (er_names s) + 1) s g_id_min
    (bytes_of "[errors] Count:" ++ fmt_d (wrap 32 (wrap 32 (er_cur s - g_id_min) + 1))).

(** Calls of package errors (errors/errors.go:83-136, errors/with_id.go,
    errors/with_id_string.go); the ids come from other calls, any uint32. *)
Inductive er_op := EReg (name : list Z) | EGet (id : Z) | EString (id : Z) | EText (id : Z) (msg : list Z) | EShowAll.
(** Results. *)
Inductive er_res := EId (id : Z) (ok : bool) | EName (name : list Z) (ok : bool) | EStr (s : list Z).
(** The same lines as the functions above. *)
Definition er_step (s : errs) (op : er_op) : outcome (errs * er_res) :=
  match op with
  | EReg name => let (s', r) := err_reg s name in Ok (s', EId (fst r) (snd r))
  | EGet id => ' (name, ok) <- err_get s id ;; Ok (s, EName name ok)
  | EString id => t <- err_string s id ;; Ok (s, EStr t)
  | EText id msg => t <- err_text s id msg ;; Ok (s, EStr t)
  | EShowAll => t <- err_show_all s ;; Ok (s, EStr t)
  end.

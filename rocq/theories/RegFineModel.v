(** Package regable under concurrent use (regable/reg.go): every step touches a lock or the shared variables, so that the steps of other
    goroutines may come between any two of them. *)
From Coq Require Import String.
From Coq Require Import ZArith List Bool Arith.
From Verif Require Import GoBase GoStrings MathModel ConcBase RaceSpec RegModel RegObjModel.
Import ListNotations.
Open Scope Z_scope.

(** A text in the making (regable/reg.go:83-92, 157-171): what is written, the reger it is at, the next record, how many records the
    reger had; if it is part of ShowAllUint32Regers, how many regers there were. *)
Record rf_text := RfText { tx_buf : list Z; tx_g : nat; tx_i : nat; tx_n : nat; tx_all : option nat }.
(** Where a goroutine is (regable/reg.go).  Looking up an id: before g_u32_rgr_id_gen (192), g_u32_reger_list[...] (195), id_gen (196), reg_list[...]
    (199).  With a record: before reading its id (347-352), RLock (289, 301, 358), the read (291, 303, 360), the deferred RUnlock; before Lock (323),
    the write (325), the deferred Unlock.  Texts: before the flag (regable/regable.go:47), the count and the header of the list (85-87), the head of a
    reger and the header of its list (159-162), the next line (162), its RLock (163), read (164-166), RUnlock (167).  Reg: before the flag (134),
    reading and writing id_gen (137; math/range_uint32.go:83-89), append (142).  FinishReg (regable/regable.go:58).  Before the return; after a panic. *)
Inductive rf_pc := QIdle
  | QGens (op : ro_op) (id : Z) | QRegers (op : ro_op) (id : Z) (ok : bool) | QGen (op : ro_op) (id : Z) (g : nat) (ok : bool) | QList (op : ro_op) (id : Z) (g : nat) (ok : bool)
  | QId (op : ro_op) (p : nat * nat) | QRLock (op : ro_op) (p : nat * nat) | QRead (op : ro_op) (p : nat * nat) | QRUnlock (op : ro_op) (p : nat * nat) (r : ro_res)
  | QLock (op : ro_op) (p : nat * nat) (v : Z) | QWrite (op : ro_op) (p : nat * nat) (v : Z) | QUnlock (op : ro_op) (p : nat * nat) (r : ro_res)
  | QFlag (op : ro_op) | QCount (op : ro_op) (buf : list Z) | QHead (op : ro_op) (buf : list Z) (g : nat) (all : option nat)
  | QLine (op : ro_op) (x : rf_text) | QLRLock (op : ro_op) (x : rf_text) | QLRead (op : ro_op) (x : rf_text) | QLRUnlock (op : ro_op) (x : rf_text)
  | QCheck (op : ro_op) (g : nat) (name : list Z) (val : Z) | QInc (op : ro_op) (g : nat) (name : list Z) (val : Z)
  | QIncW (op : ro_op) (g : nat) (name : list Z) (val : Z) (gen : range) (id : Z) | QApp (op : ro_op) (g : nat) (name : list Z) (val : Z) (id : Z)
  | QFinish (op : ro_op) | QRet (op : ro_op) (r : ro_res) | QDead.

(** A sync.RWMutex (regable/reg.go:177): who holds it for writing, who for reading, who has ever released it from reading. *)
Record rf_lock := RfLock { lk_w : option nat; lk_rs : list nat; lk_seen : list nat }.
(** The registry, the locks of its records, the goroutines (regable/reg.go:36-44, 95-100, 173-178). *)
Record rf_state := RfState { rf_regs : regs; rf_lk : nat * nat -> rf_lock; rf_pcs : nat -> rf_pc }.

(** Goroutine [t] goes on at [pc] (regable/reg.go). *)
Definition rf_go (s : rf_state) (t : nat) (pc : rf_pc) : rf_state := RfState (rf_regs s) (rf_lk s) (fupd (rf_pcs s) t pc).
(** sync.RWMutex, called at regable/reg.go:163-167, 289-290, 301-302, 323-324, 358-359: Lock waits until nobody holds the lock, RLock until nobody holds
    it for writing.  Simplified as in ErrFineModel.v: waiting writers do not hold up new readers. *)
Definition peqb (p q : nat * nat) : bool := (fst p =? fst q)%nat && (snd p =? snd q)%nat.
(** regable/reg.go:177. *)
Definition rf_set_lock (s : rf_state) (p : nat * nat) (l : rf_lock) : rf_state :=
  RfState (rf_regs s) (fun q => if peqb q p then l else rf_lk s q) (rf_pcs s).
(** regable/reg.go:141-142, 325. *)
Definition rf_set_regs (s : rf_state) (r : regs) : rf_state := RfState r (rf_lk s) (rf_pcs s).

(** What the call does with the record of its id, when the error of get is nil: regable/reg.go:204-209 Valid, 212-218 Get, 221-227 GetNoErr, 230-236 Set,
    253-262 String, 266-274 Name, 277-283 Oject, with 409-411 Id for GObjId; 414-422 RegO. *)
Definition rf_found (op : ro_op) (p : nat * nat) : rf_pc :=
  match op with
  | RBase (GValid _) => QRet op (RRes (GBool true))
  | RBase (GSet _ v) => QLock op p v
  | RBase (GObjId _) => QId op p
  | RObject _ | RRegO _ _ _ => QRet op (RObj (Some p))
  | _ => QRLock op p
  end.
(** The same when it is not nil (the same lines). *)
Definition rf_bad (op : ro_op) (id : Z) : rf_pc :=
  match op with
  | RBase (GValid _) => QRet op (RRes (GBool false))
  | RBase (GGet _) | RBase (GSet _ _) => QRet op (RRes (GVal 0 false))
  | RBase (GName _) => QRet op (RRes (GStr [] false))
  | RBase (GObjId _) => QRet op (RRes (GId 0))
  | RObject _ | RRegO _ _ _ => QRet op (RObj None)
  | IString _ => let (a, b) := reged_ids id in
      QRet op (RText (bytes_of "invalid Uint32Id#(" ++ fmt_d a ++ bytes_of "|" ++ fmt_d b ++ bytes_of ")"))
  | _ => QDead
  end.
(** The call begins: regable/reg.go:126, 157, 189-283, 373-431; regable/regable.go:46, 57; nil objects: 287-365.  Left out: NewUint32Reger and MaxReg,
    for which the goroutine does nothing. *)
Definition rf_start (op : ro_op) : rf_pc :=
  match op with
  | RBase (GNew _) | RBase (GMaxReg _ _) => QIdle
  | RBase (GReg g name val) | RRegO g name val => if g <? 0 then QDead else QCheck op (Z.to_nat g) name val
  | RBase GFinish => QFinish op
  | RBase (GIds id) => QRet op (RRes (GPair (fst (reged_ids id)) (snd (reged_ids id))))
  | RBase (GValid id) | RBase (GGet id) | RBase (GSet id _) | RBase (GName id) | RBase (GObjId id) | RObject id | IGetNoErr id | IString id => QGens op id
  | OValid o => QRet op (RRes (GBool (match o with Some _ => true | None => false end)))
  | OGet None | OSet None _ => QRet op (RRes (GVal 0 false))
  | OGetNoErr None => QDead
  | OName None => QRet op (RRes (GStr [] false))
  | OId None => QRet op (RRes (GId 0))
  | OString None => QRet op (RText (bytes_of "invalid uint32 object"))
  | OSet (Some p) v => QLock op p v
  | OId (Some p) => QId op p
  | OGet (Some p) | OGetNoErr (Some p) | OName (Some p) | OString (Some p) => QRLock op p
  | GString g => if g <? 0 then QDead else QHead op [] (Z.to_nat g) None
  | GShowRegers => QCount op []
  | GShowAll => QFlag op
  end.
(** What a call reads in the record, with the lock held: regable/reg.go:291 Name, 303 Get, 360 String (the id of the record is read with the rest
    instead of just before RLock, 357). *)
Definition rf_read (op : ro_op) (r : rrec) : ro_res :=
  match op with
  | IGetNoErr _ | OGetNoErr _ => RNum (rc_val r)
  | RBase (GName _) | OName _ => RRes (GStr (rc_name r) true)
  | IString _ | OString _ => RText (rec_text r)
  | _ => RRes (GVal (rc_val r) true)
  end.
(** The text when a reger is finished (regable/reg.go:170; 87-91: the next reger). *)
Definition rf_next (op : ro_op) (x : rf_text) : rf_pc :=
  match tx_all x with
  | Some n => if (S (tx_g x) <? n)%nat then QHead op (tx_buf x ++ [10]) (S (tx_g x)) (Some n) else QRet op (RText (tx_buf x))
  | None => QRet op (RText (tx_buf x))
  end.

(** One step of goroutine [t]; [op] is what it calls if it is outside.  Lines: see [rf_pc].  A goroutine that waits for a lock does nothing.
    Simplified: append is one step, and elements are not told apart by the array they are in (142). *)
Definition rf_step (s : rf_state) (t : nat) (op : ro_op) : rf_state * list (ext ro_op ro_res) :=
  let rg := rf_regs s in
  let go pc := (rf_go s t pc, []) in
  match rf_pcs s t with
  | QIdle => match rf_start op with QIdle => (s, []) | pc => (rf_go s t pc, [Inv t op]) end
  | QGens o id => let a := fst (reged_ids id) in go (QRegers o id (negb ((a =? 0) || negb (in_current_range (rs_gen rg) a))))
  | QRegers o id ok =>
      let i := wrap 32 (fst (reged_ids id) - 0 - 1) in
      go (if (0 <=? i) && (i <? zlen (rs_list rg)) then QGen o id (Z.to_nat i) ok else QDead)
  | QGen o id g ok =>
      match nth_error (rs_list rg) g with
      | Some p => let b := snd (reged_ids id) in go (QList o id g (ok && negb ((b =? 0) || negb (in_current_range (rg_gen p) b))))
      | None => go QDead
      end
  | QList o id g ok =>
      let i := wrap 32 (snd (reged_ids id) - 0 - 1) in
      match nth_error (rs_list rg) g with
      | Some p => go (if (0 <=? i) && (i <? zlen (rg_list p)) then (if ok then rf_found o (g, Z.to_nat i) else rf_bad o id) else QDead)
      | None => go QDead
      end
  | QId o p => match rec_at rg p with Ok r => go (QRet o (RRes (GId (rc_id r)))) | _ => go QDead end
  | QRLock o p =>
      match lk_w (rf_lk s p) with
      | None => (rf_go (rf_set_lock s p (RfLock None (t :: lk_rs (rf_lk s p)) (lk_seen (rf_lk s p)))) t (QRead o p), [])
      | Some _ => (s, [])
      end
  | QRead o p => match rec_at rg p with Ok r => go (QRUnlock o p (rf_read o r)) | _ => go QDead end
  | QRUnlock o p r =>
      let l := rf_lk s p in
      (rf_go (rf_set_lock s p (RfLock (lk_w l) (remove Nat.eq_dec t (lk_rs l)) (t :: lk_seen l))) t (QRet o r), [])
  | QLock o p v =>
      match lk_w (rf_lk s p), lk_rs (rf_lk s p) with
      | None, [] => (rf_go (rf_set_lock s p (RfLock (Some t) [] (lk_seen (rf_lk s p)))) t (QWrite o p v), [])
      | _, _ => (s, [])
      end
  | QWrite o p v =>
      match ro_step rg (OSet (Some p) v) with
      | Ok (rg', r) => (rf_go (rf_set_regs s rg') t (QUnlock o p r), [])
      | _ => go QDead
      end
  | QUnlock o p r => let l := rf_lk s p in (rf_go (rf_set_lock s p (RfLock None (lk_rs l) (lk_seen l))) t (QRet o r), [])
  | QFlag o => go (QCount o (bytes_of "[regable] locked:" ++ bytes_of (if rs_locked rg then "true" else "false") ++ [10]))
  | QCount o buf =>
      let n := length (rs_list rg) in
      let buf := buf ++ bytes_of "[Uint32Regers] count:" ++ fmt_d (zlen (rs_list rg)) in
      go (if (0 <? n)%nat then QHead o (buf ++ [10]) 0 (Some n) else QRet o (RText buf))
  | QHead o buf g all =>
      match nth_error (rs_list rg) g with
      | Some p =>
          go (QLine o (RfText (buf ++ bytes_of "[Uint32Reger#" ++ fmt_d (rg_id p) ++ bytes_of ": " ++ rg_name p ++ bytes_of "] ids:" ++ range_text (rg_gen p))
                g 0 (length (rg_list p)) all))
      | None => go QDead
      end
  | QLine o x => go (if (tx_i x <? tx_n x)%nat then QLRLock o x else rf_next o x)
  | QLRLock o x =>
      let p := (tx_g x, tx_i x) in
      match lk_w (rf_lk s p) with
      | None => (rf_go (rf_set_lock s p (RfLock None (t :: lk_rs (rf_lk s p)) (lk_seen (rf_lk s p)))) t (QLRead o x), [])
      | Some _ => (s, [])
      end
  | QLRead o x =>
      match rec_at rg (tx_g x, tx_i x) with
      | Ok r => go (QLRUnlock o (RfText (tx_buf x ++ rec_lines (Z.of_nat (tx_i x)) [r]) (tx_g x) (tx_i x) (tx_n x) (tx_all x)))
      | _ => go QDead
      end
  | QLRUnlock o x =>
      let p := (tx_g x, tx_i x) in let l := rf_lk s p in
      (rf_go (rf_set_lock s p (RfLock (lk_w l) (remove Nat.eq_dec t (lk_rs l)) (t :: lk_seen l))) t
         (QLine o (RfText (tx_buf x) (tx_g x) (S (tx_i x)) (tx_n x) (tx_all x))), [])
  | QCheck o g name val => go (if rs_locked rg then QDead else QInc o g name val)
  | QInc o g name val =>
      match nth_error (rs_list rg) g with
      | Some p => let (gen, r) := range_inc 32 (rg_gen p) in go (if snd r then QIncW o g name val gen (fst r) else QDead)
      | None => go QDead
      end
  | QIncW o g name val gen id =>
      match nth_error (rs_list rg) g with
      | Some p =>
          (rf_go (rf_set_regs s (Regs (rs_locked rg) (rs_gen rg) (upd (rs_list rg) g (Reger (rg_id p) (rg_name p) gen (rg_list p))))) t (QApp o g name val id), [])
      | None => go QDead
      end
  | QApp o g name val id =>
      match nth_error (rs_list rg) g with
      | Some p =>
          let s' := rf_set_regs s (Regs (rs_locked rg) (rs_gen rg) (upd (rs_list rg) g (Reger (rg_id p) (rg_name p) (rg_gen p) (rg_list p ++ [RRec name val id])))) in
          let rid := make_reged_id (rg_id p) id in
          (rf_go s' t (match o with RRegO _ _ _ => QGens o rid | _ => QRet o (RRes (GId rid)) end), [])
      | None => go QDead
      end
  | QFinish o => (rf_go (rf_set_regs s (Regs true (rs_gen rg) (rs_list rg))) t (QRet o (RRes GUnit)), [])
  | QRet o r => (rf_go s t QIdle, [Ret t o r])
  | QDead => (s, [])
  end.
(** No lock is held and nobody is inside (regable/reg.go:173-185). *)
Definition rf_init (r : regs) : rf_state := RfState r (fun _ => RfLock None [] []) (fun _ => QIdle).

(** The locations: regable/regable.go:26 g_reg_locked; regable/reg.go:37 g_u32_rgr_id_gen, 43 the header and the elements of g_u32_reger_list; 95-100 number and
    name, id_gen, header and elements of reg_list of a reger; 173-178 name, value and id of a record, and what its lock synchronises by. *)
Inductive rf_loc := XLocked | XGens | XRegers | XSlot (g : nat) | XReger (g : nat) | XGen (g : nat) | XList (g : nat) | XElem (p : nat * nat)
  | XName (p : nat * nat) | XVal (p : nat * nat) | XId (p : nat * nat) | XMu (p : nat * nat) | XRd (p : nat * nat) (t : nat).
(** Which locations a step touches: the lines are those of [rf_pc].  A step that only writes also lists the element that led to what it writes
    (that it is there). *)
Definition rf_accs (s : rf_state) (t : nat) (op : ro_op) : list (acc rf_loc) :=
  let rg := rf_regs s in
  match rf_pcs s t with
  | QIdle | QRet _ _ | QDead => []
  | QGens _ id => if fst (reged_ids id) =? 0 then [] else [PRead XGens]
  | QRegers _ id _ =>
      let i := wrap 32 (fst (reged_ids id) - 0 - 1) in
      PRead XRegers :: (if (0 <=? i) && (i <? zlen (rs_list rg)) then [PRead (XSlot (Z.to_nat i))] else [])
  | QGen _ id g _ => [PRead (XGen g)]
  | QList _ id g _ =>
      let i := wrap 32 (snd (reged_ids id) - 0 - 1) in
      match nth_error (rs_list rg) g with
      | Some p => PRead (XList g) :: (if (0 <=? i) && (i <? zlen (rg_list p)) then [PRead (XElem (g, Z.to_nat i))] else [])
      | None => [PRead (XList g)]
      end
  | QId _ p => [PRead (XId p)]
  | QRLock _ p => match lk_w (rf_lk s p) with None => [ALoad (XMu p)] | Some _ => [] end
  | QRead o p =>
      match o with
      | RBase (GName _) | OName _ => [PRead (XName p)]
      | IString _ | OString _ => [PRead (XId p); PRead (XName p); PRead (XVal p)]
      | _ => [PRead (XVal p)]
      end
  | QRUnlock _ p _ => [AStore (XRd p t)]
  | QLock _ p _ => match lk_w (rf_lk s p), lk_rs (rf_lk s p) with None, [] => ALoad (XMu p) :: map (fun u => ALoad (XRd p u)) (lk_seen (rf_lk s p)) | _, _ => [] end
  | QWrite _ p _ => [PRead (XElem p); PWrite (XVal p)]
  | QUnlock _ p _ => [AStore (XMu p)]
  | QFlag _ => [PRead XLocked]
  | QCount _ _ => [PRead XRegers]
  | QHead _ _ g _ => [PRead (XSlot g); PRead (XReger g); PRead (XGen g); PRead (XList g)]
  | QLine _ x => if (tx_i x <? tx_n x)%nat then [PRead (XElem (tx_g x, tx_i x))] else []
  | QLRLock _ x => match lk_w (rf_lk s (tx_g x, tx_i x)) with None => [ALoad (XMu (tx_g x, tx_i x))] | Some _ => [] end
  | QLRead _ x => [PRead (XName (tx_g x, tx_i x)); PRead (XVal (tx_g x, tx_i x))]
  | QLRUnlock _ x => [AStore (XRd (tx_g x, tx_i x) t)]
  | QCheck _ _ _ _ => [PRead XLocked]
  | QInc _ g _ _ => [PRead (XGen g)]
  | QIncW _ g _ _ _ _ => [PRead (XSlot g); PWrite (XGen g)]
  | QApp _ g _ _ _ =>
      match nth_error (rs_list rg) g with
      | Some p => let q := (g, length (rg_list p)) in
          [PWrite (XName q); PWrite (XVal q); PWrite (XId q); PRead (XList g); PWrite (XElem q); PWrite (XList g); PRead (XReger g)]
      | None => [PRead (XList g)]
      end
  | QFinish _ => [PWrite XLocked]
  end.
(** What a location holds (the lines of [rf_loc]). *)
Inductive rf_cell := VLk | VFlag (b : bool) | VRange (r : option range) | VLen (n : option Z) | VName (n : option (Z * list Z)) | VPtr (b : bool) | VText (s : option (list Z))
  | VWord (z : option Z).
(** regable/regable.go:26, regable/reg.go:36-44, 95-100, 173-178. *)
Definition rf_at (s : rf_state) (l : rf_loc) : rf_cell :=
  let rg := rf_regs s in
  let rgr g := nth_error (rs_list rg) g in
  let rec p := match rgr (fst p) with Some q => nth_error (rg_list q) (snd p) | None => None end in
  match l with
  | XLocked => VFlag (rs_locked rg)
  | XGens => VRange (Some (rs_gen rg))
  | XRegers => VLen (Some (zlen (rs_list rg)))
  | XSlot g => VPtr (match rgr g with Some _ => true | None => false end)
  | XReger g => VName (option_map (fun p => (rg_id p, rg_name p)) (rgr g))
  | XGen g => VRange (option_map rg_gen (rgr g))
  | XList g => VLen (option_map (fun p => zlen (rg_list p)) (rgr g))
  | XElem p => VPtr (match rec p with Some _ => true | None => false end)
  | XName p => VText (option_map rc_name (rec p))
  | XVal p => VWord (option_map rc_val (rec p))
  | XId p => VWord (option_map rc_id (rec p))
  | XMu _ | XRd _ _ => VLk
  end.

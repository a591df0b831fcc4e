(** What the objects and texts of package regable say, in terms of the cells of the registry. *)
From Coq Require Import String.
From Coq Require Import ZArith List Bool.
From Verif Require Import GoBase GoStrings MathModel RegModel RegSpec RegObjModel.
Import ListNotations.
Open Scope Z_scope.

(** A reger: its name, its limit and its (name, value) cells. *)
Record areger := AReger { ag_name : list Z; ag_max : Z; ag_cells : list (list Z * Z) }.
Record aregs := ARegs { as_locked : bool; as_list : list areger }.

Definition cell_text (n : Z) (c : list Z * Z) : list Z :=
  bytes_of "#" ++ fmt_d n ++ bytes_of " [" ++ fst c ++ bytes_of "]: " ++ fmt_d (snd c).
Fixpoint cell_lines (n : Z) (l : list (list Z * Z)) : list Z :=
  match l with [] => [] | c :: t => [10] ++ cell_text n c ++ cell_lines (n + 1) t end.
Definition areger_text (n : Z) (g : areger) : list Z :=
  bytes_of "[Uint32Reger#" ++ fmt_d n ++ bytes_of ": " ++ ag_name g ++ bytes_of "] ids:RangeUint32{val:" ++ fmt_d (zlen (ag_cells g) + 1) ++
  bytes_of " min:0 max:" ++ fmt_d (ag_max g) ++ bytes_of "}" ++ cell_lines 1 (ag_cells g).
Fixpoint areger_texts (n : Z) (l : list areger) : list Z :=
  match l with [] => [] | g :: t => [10] ++ areger_text n g ++ areger_texts (n + 1) t end.
Definition aregs_text (l : list areger) : list Z := bytes_of "[Uint32Regers] count:" ++ fmt_d (zlen l) ++ areger_texts 1 l.
(** The text of the cell with number [n] of a reger: the code leaves out the number of the reger. *)
Definition obj_text (n : Z) (c : list Z * Z) : list Z :=
  bytes_of "Uint32#(0|" ++ fmt_d n ++ bytes_of "|" ++ fst c ++ bytes_of ")" ++ fmt_d (snd c).

(** The cell an object or an id stands for. *)
Definition ocell (l : list areger) (p : nat * nat) : option (list Z * Z) :=
  match nth_error l (fst p) with Some g => nth_error (ag_cells g) (snd p) | None => None end.
Definition icell (l : list areger) (id : Z) : option (nat * nat) :=
  let g := id / 2 ^ 24 in let n := id mod 2 ^ 24 in
  if (1 <=? g) && (1 <=? n) then
    let p := (Z.to_nat (g - 1), Z.to_nat (n - 1)) in
    match ocell l p with Some _ => Some p | None => None end
  else None.
Definition set_ocell (l : list areger) (p : nat * nat) (v : Z) : list areger :=
  match nth_error l (fst p) with
  | Some g =>
      match nth_error (ag_cells g) (snd p) with
      | Some c => upd l (fst p) (AReger (ag_name g) (ag_max g) (upd (ag_cells g) (snd p) (fst c, v)))
      | None => l
      end
  | None => l
  end.

Definition with_cell {A : Type} (l : list areger) (p : nat * nat) (f : list Z * Z -> A) : outcome A :=
  match ocell l p with Some c => Ok (f c) | None => Panic end.
Definition with_id {A : Type} (l : list areger) (id : Z) (f : nat * nat -> list Z * Z -> A) : outcome A :=
  match icell l id with Some p => with_cell l p (f p) | None => Panic end.

(** The registry as one object. *)
Definition ro_spec (a : aregs) (op : ro_op) : outcome (aregs * ro_res) :=
  let l := as_list a in
  let reg g name val k :=
    if (0 <=? g) && (g <? zlen l) && negb (as_locked a) then
      match nth_error l (Z.to_nat g) with
      | Some r => Ok (ARegs false (upd l (Z.to_nat g) (AReger (ag_name r) (ag_max r) (ag_cells r ++ [(name, val)]))), k (length (ag_cells r)))
      | None => Panic
      end
    else Panic in
  match op with
  | RBase (GNew name) => if as_locked a then Panic else Ok (ARegs false (l ++ [AReger name 1024 []]), RRes (GHandle (zlen l)))
  | RBase (GMaxReg g m) =>
      if (0 <=? g) && (g <? zlen l) then
        if (1 <=? m) && (m <? 2 ^ 24) then
          match nth_error l (Z.to_nat g) with
          | Some r => Ok (ARegs (as_locked a) (upd l (Z.to_nat g) (AReger (ag_name r) m (ag_cells r))), RRes (GLimit m true))
          | None => Panic
          end
        else Ok (a, RRes (GLimit 0 false))
      else Panic
  | RBase (GReg g name val) => reg g name val (fun n => RRes (GId ((g + 1) * 2 ^ 24 + (Z.of_nat n + 1))))
  | RRegO g name val => reg g name val (fun n => RObj (Some (Z.to_nat g, n)))
  | RBase GFinish => Ok (ARegs true l, RRes GUnit)
  | RBase (GValid id) => r <- with_id l id (fun _ _ => RRes (GBool true)) ;; Ok (a, r)
  | RBase (GGet id) => r <- with_id l id (fun _ c => RRes (GVal (snd c) true)) ;; Ok (a, r)
  | RBase (GSet id v) => r <- with_id l id (fun p _ => (ARegs (as_locked a) (set_ocell l p v), RRes (GVal v true))) ;; Ok r
  | RBase (GName id) => r <- with_id l id (fun _ c => RRes (GStr (fst c) true)) ;; Ok (a, r)
  | RBase (GIds id) => Ok (a, RRes (GPair (id / 2 ^ 24) (id mod 2 ^ 24)))
  | RBase (GObjId id) => r <- with_id l id (fun _ _ => RRes (GId (id mod 2 ^ 24))) ;; Ok (a, r)
  | RObject id => r <- with_id l id (fun p _ => RObj (Some p)) ;; Ok (a, r)
  | OValid o => Ok (a, RRes (GBool (match o with Some _ => true | None => false end)))
  | OGet None => Ok (a, RRes (GVal 0 false))
  | OGet (Some p) => r <- with_cell l p (fun c => RRes (GVal (snd c) true)) ;; Ok (a, r)
  | OGetNoErr None => Panic
  | OGetNoErr (Some p) => r <- with_cell l p (fun c => RNum (snd c)) ;; Ok (a, r)
  | OSet None _ => Ok (a, RRes (GVal 0 false))
  | OSet (Some p) v => r <- with_cell l p (fun _ => (ARegs (as_locked a) (set_ocell l p v), RRes (GVal v true))) ;; Ok r
  | OName None => Ok (a, RRes (GStr [] false))
  | OName (Some p) => r <- with_cell l p (fun c => RRes (GStr (fst c) true)) ;; Ok (a, r)
  | OId None => Ok (a, RRes (GId 0))
  | OId (Some p) => r <- with_cell l p (fun _ => RRes (GId (Z.of_nat (snd p) + 1))) ;; Ok (a, r)
  | OString None => Ok (a, RText (bytes_of "invalid uint32 object"))
  | OString (Some p) => r <- with_cell l p (fun c => RText (obj_text (Z.of_nat (snd p) + 1) c)) ;; Ok (a, r)
  | IGetNoErr id => r <- with_id l id (fun _ c => RNum (snd c)) ;; Ok (a, r)
  | IString id => r <- with_id l id (fun p c => RText (obj_text (Z.of_nat (snd p) + 1) c)) ;; Ok (a, r)
  | GString g =>
      if (0 <=? g) && (g <? zlen l)
      then match nth_error l (Z.to_nat g) with Some r => Ok (a, RText (areger_text (g + 1) r)) | None => Panic end
      else Panic
  | GShowRegers => Ok (a, RText (aregs_text l))
  | GShowAll => Ok (a, RText (bytes_of "[regable] locked:" ++ bytes_of (if as_locked a then "true" else "false") ++ [10] ++ aregs_text l))
  end.

(** Ids passed to calls are 32-bit words. *)
Definition ro_ok (op : ro_op) : Prop :=
  match op with RBase op => id_ok op | RObject id | IGetNoErr id | IString id => 0 <= id < 2 ^ 32 | _ => True end.
Definition ro_new (op : ro_op) : bool := match op with RBase (GNew _) => true | _ => false end.
Definition ro_reg (op : ro_op) : bool := match op with RBase (GReg _ _ _) | RRegO _ _ _ => true | _ => false end.
Definition ro_count_new (ops : list ro_op) : Z := zlen (filter ro_new ops).
Definition ro_count_reg (ops : list ro_op) : Z := zlen (filter ro_reg ops).

(** What mappings, registries and error ids promise. *)
From Coq Require Import String.
From Coq Require Import ZArith List Bool.
From Verif Require Import GoBase GoMap GoStrings MathModel RegModel.
Import ListNotations.
Open Scope Z_scope.

(** ** A mapping is a list of pairs; [None] before the first Init. *)
Definition pair_of_key (k : Z) (l : list (Z * Z)) : option (Z * Z) := find (fun p => fst p =? k) l.
Definition pair_of_value (v : Z) (l : list (Z * Z)) : option (Z * Z) := find (fun p => snd p =? v) l.
Definition pairs (a : option (list (Z * Z))) : list (Z * Z) := match a with None => [] | Some l => l end.

Definition bi_step (a : option (list (Z * Z))) (op : mp_op) : outcome (option (list (Z * Z)) * mp_res) :=
  let l := pairs a in
  match op with
  | MInit | MClear => Ok (Some [], MUnit)
  | MInsert k v =>
      match pair_of_key k l, pair_of_value v l with
      | Some _, _ => Ok (a, MDupKey)
      | None, Some _ => Ok (a, MDupValue)
      | None, None => match a with None => Panic | Some _ => Ok (Some (l ++ [(k, v)]), MId k) end
      end
  | MRemoveByKey k =>
      match pair_of_key k l with
      | None => Ok (a, MBool false)
      | Some _ => Ok (Some (filter (fun p => negb (fst p =? k)) l), MBool true)
      end
  | MRemoveByValue v =>
      match pair_of_value v l with
      | None => Ok (a, MBool false)
      | Some _ => Ok (Some (filter (fun p => negb (snd p =? v)) l), MBool true)
      end
  | MFind k => Ok (a, match pair_of_key k l with Some p => MFound (snd p) true | None => MFound 0 false end)
  | MReverseFind v => Ok (a, match pair_of_value v l with Some p => MFound (fst p) true | None => MFound 0 false end)
  end.

(** A mapping holds the pairs [l]: both maps contain exactly them, every key and
    every value occurs once, and both maps have as many entries. *)
Definition holds (s : mapping) (a : option (list (Z * Z))) : Prop :=
  match a with
  | None => s = mp_zero
  | Some l =>
      exists n r, mp_normal s = Some n /\ mp_reverse s = Some r /\
        (forall k v, In (k, v) n <-> In (k, v) l) /\ (forall k v, In (v, k) r <-> In (k, v) l) /\
        NoDup (map fst l) /\ NoDup (map snd l) /\ length n = length l /\ length r = length l
  end.

(** ** A registry is a list of regers, each a list of (name, value) cells, and a
    lock. Ids are reger number times 2^24 plus cell number, both from 1. *)
Record areg := AReg { ar_locked : bool; ar_cells : list (list (list Z * Z)) }.

Definition cell_at (l : list (list (list Z * Z))) (id : Z) : option (list Z * Z) :=
  let g := id / 2 ^ 24 in let n := id mod 2 ^ 24 in
  if (1 <=? g) && (1 <=? n) then
    match nth_error l (Z.to_nat (g - 1)) with
    | Some cells => nth_error cells (Z.to_nat (n - 1))
    | None => None
    end
  else None.

Definition set_cell (l : list (list (list Z * Z))) (id : Z) (c : list Z * Z) : list (list (list Z * Z)) :=
  let g := Z.to_nat (id / 2 ^ 24 - 1) in let n := Z.to_nat (id mod 2 ^ 24 - 1) in
  upd l g (upd (nth g l []) n c).

Definition ar_step (a : areg) (op : rg_op) : outcome (areg * rg_res) :=
  let l := ar_cells a in
  match op with
  | GNew _ => if ar_locked a then Panic else Ok (AReg false (l ++ [[]]), GHandle (zlen l))
  | GMaxReg g m =>
      if (0 <=? g) && (g <? zlen l)
      then Ok (a, if (1 <=? m) && (m <? 2 ^ 24) then GLimit m true else GLimit 0 false)
      else Panic
  | GReg g name val =>
      if (0 <=? g) && (g <? zlen l) && negb (ar_locked a) then
        let cells := nth (Z.to_nat g) l [] in
        Ok (AReg false (upd l (Z.to_nat g) (cells ++ [(name, val)])), GId ((g + 1) * 2 ^ 24 + (zlen cells + 1)))
      else Panic
  | GFinish => Ok (AReg true l, GUnit)
  | GValid id => match cell_at l id with Some _ => Ok (a, GBool true) | None => Panic end
  | GGet id => match cell_at l id with Some c => Ok (a, GVal (snd c) true) | None => Panic end
  | GSet id v => match cell_at l id with
                 | Some c => Ok (AReg (ar_locked a) (set_cell l id (fst c, v)), GVal v true)
                 | None => Panic
                 end
  | GName id => match cell_at l id with Some c => Ok (a, GStr (fst c) true) | None => Panic end
  | GIds id => Ok (a, GPair (id / 2 ^ 24) (id mod 2 ^ 24))
  | GObjId id => match cell_at l id with Some _ => Ok (a, GId (id mod 2 ^ 24)) | None => Panic end
  end.

(** Ids passed to calls are 32-bit words. *)
Definition id_ok (op : rg_op) : Prop :=
  match op with
  | GValid id | GGet id | GSet id _ | GName id | GIds id | GObjId id => 0 <= id < 2 ^ 32
  | _ => True
  end.
Definition is_new (op : rg_op) : bool := match op with GNew _ => true | _ => false end.
Definition is_reg (op : rg_op) : bool := match op with GReg _ _ _ => true | _ => false end.
Definition count_new (ops : list rg_op) : Z := zlen (filter is_new ops).
Definition count_reg (ops : list rg_op) : Z := zlen (filter is_reg ops).

(** The ids that the Reg calls of a history returned. *)
Fixpoint issued (ops : list rg_op) (os : list rg_res) : list Z :=
  match ops, os with
  | GReg _ _ _ :: ops, GId id :: os => id :: issued ops os
  | _ :: ops, _ :: os => issued ops os
  | _, _ => []
  end.

(** The results of a history, without the final state. *)
Definition results {S R : Type} (x : outcome (S * list R)) : outcome (list R) :=
  match x with Ok (_, o) => Ok o | Panic => Panic | Diverge => Diverge end.

(** ** Error ids: [a] are the names registered after initialisation. Id 1001
    belongs to the package itself. *)
Definition err_name (a : list (list Z)) (id : Z) : option (list Z) :=
  if id =? 1001 then Some (bytes_of "unknown error")
  else if 1002 <=? id then nth_error a (Z.to_nat (id - 1002)) else None.

Definition err_line (id : Z) (name : list Z) : list Z :=
  bytes_of "error#" ++ fmt_d id ++ bytes_of " (" ++ name ++ bytes_of ")".
Fixpoint err_lines (id : Z) (a : list (list Z)) : list Z :=
  match a with
  | [] => []
  | name :: t => [10] ++ err_line id name ++ err_lines (id + 1) t
  end.

Definition er_spec (a : list (list Z)) (op : er_op) : list (list Z) * er_res :=
  match op with
  | EReg name => if zlen a <? 8998 then (a ++ [name], EId (1002 + zlen a) true) else (a, EId 1000 false)
  | EGet id => (a, match err_name a id with Some n => EName n true | None => EName [] false end)
  | EString id => (a, EStr (match err_name a id with
                            | Some n => err_line id n
                            | None => bytes_of "invalid error id:" ++ fmt_d id
                            end))
  | EText id msg => (a, EStr (match err_name a id with
                              | Some n => err_line id n ++ bytes_of ": " ++ msg
                              | None => bytes_of "invalid error id:" ++ fmt_d id
                              end))
  | EShowAll => (a, EStr (bytes_of "[errors] Count:" ++ fmt_d (zlen a + 1) ++ err_lines 1001 (bytes_of "unknown error" :: a)))
  end.
Definition er_ok (op : er_op) : Prop :=
  match op with EGet id | EString id | EText id _ => 0 <= id < 2 ^ 32 | _ => True end.

(** The ids that successful registrations of a history returned, in order. *)
Fixpoint reg_ids (os : list er_res) : list Z :=
  match os with
  | [] => []
  | EId id true :: t => id :: reg_ids t
  | _ :: t => reg_ids t
  end.

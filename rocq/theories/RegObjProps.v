(** Properties of the objects and texts of package regable. *)
From Coq Require Import String.
From Coq Require Import ZArith List Bool.
From Verif Require Import GoBase GoLists GoStrings MathModel RegSpec RegObjSpec RegObjProofs RegModel RegObjModel.
Import ListNotations.
Open Scope Z_scope.

(** C185: every history of calls on regers, ids and objects gives the results and the texts of a list of regers with (name, value) cells: RegO
    gives the object of the cell it adds, an object stays the object of that cell, and a value set through the id is read through the object and
    the other way round. *)
Theorem C185_registry_objects : forall ops, Forall ro_ok ops -> ro_count_new ops <= 255 -> ro_count_reg ops < 2 ^ 24 ->
  results (run_ops ro_step regs_init ops) = results (run_ops ro_spec (ARegs false []) ops).
Proof. exact registry_objects. Qed.
Print Assumptions C185_registry_objects.
Example C185_ex :
  results (run_ops ro_step regs_init [RBase (GNew (bytes_of "a")); RBase (GNew (bytes_of "b")); RRegO 1 (bytes_of "x") 5; RBase (GReg 1 (bytes_of "y") 6);
    OSet (Some (1%nat, 0%nat)) 9; RBase (GGet 33554433); RObject 33554434; OString (Some (1%nat, 1%nat)); RBase GFinish; GString 1; GShowAll; OGet None]) =
  Ok [RRes (GHandle 0); RRes (GHandle 1); RObj (Some (1%nat, 0%nat)); RRes (GId 33554434); RRes (GVal 9 true); RRes (GVal 9 true); RObj (Some (1%nat, 1%nat));
      RText (bytes_of "Uint32#(0|2|y)6"); RRes GUnit;
      RText (bytes_of "[Uint32Reger#2: b] ids:RangeUint32{val:3 min:0 max:1024}" ++ [10] ++ bytes_of "#1 [x]: 9" ++ [10] ++ bytes_of "#2 [y]: 6");
      RText (bytes_of "[regable] locked:true" ++ [10] ++ bytes_of "[Uint32Regers] count:2" ++ [10] ++
             bytes_of "[Uint32Reger#1: a] ids:RangeUint32{val:1 min:0 max:1024}" ++ [10] ++
             bytes_of "[Uint32Reger#2: b] ids:RangeUint32{val:3 min:0 max:1024}" ++ [10] ++ bytes_of "#1 [x]: 9" ++ [10] ++ bytes_of "#2 [y]: 6");
      RRes (GVal 0 false)].
Proof. vm_compute. reflexivity. Qed.

(** C186: the object of an id gives back the id, and reads, names, shows and sets the same record as the id.  Missing from the full statement: only
    the number of the record within its reger comes back; see the refutation. *)
Theorem C186_object_of_id_partial : forall ops s os id s' o, Forall ro_ok ops -> ro_count_new ops <= 255 -> ro_count_reg ops < 2 ^ 24 -> 0 <= id < 2 ^ 32 ->
  run_ops ro_step regs_init ops = Ok (s, os) -> ro_step s (RObject id) = Ok (s', RObj o) ->
  ro_step s' (OId o) = Ok (s', RRes (GId (id mod 2 ^ 24))) /\ ro_step s' (OGet o) = ro_step s' (RBase (GGet id)) /\
  ro_step s' (OName o) = ro_step s' (RBase (GName id)) /\ ro_step s' (OString o) = ro_step s' (IString id) /\
  (forall v, ro_step s' (OSet o v) = ro_step s' (RBase (GSet id v))).
Proof. exact object_id. Qed.
Print Assumptions C186_object_of_id_partial.
(** The id an object gives is not the one it was registered under, and it does not lead back to the object: Get on it panics.  Two objects
    of different regers show the same text. *)
Theorem C186_object_of_id_refuted :
  exists s, run_ops ro_step regs_init [RBase (GNew (bytes_of "a")); RBase (GNew (bytes_of "b")); RBase (GReg 0 (bytes_of "x") 5); RBase (GReg 1 (bytes_of "x") 5)] =
    Ok (s, [RRes (GHandle 0); RRes (GHandle 1); RRes (GId 16777217); RRes (GId 33554433)]) /\
  ro_step s (RObject 16777217) = Ok (s, RObj (Some (0%nat, 0%nat))) /\ ro_step s (OId (Some (0%nat, 0%nat))) = Ok (s, RRes (GId 1)) /\
  ro_step s (RBase (GGet 1)) = Panic /\ ro_step s (IString 16777217) = ro_step s (IString 33554433).
Proof. eexists. repeat split; vm_compute; reflexivity. Qed.
Print Assumptions C186_object_of_id_refuted.
Example C186_ex :
  results (run_ops ro_step regs_init [RBase (GNew (bytes_of "a")); RBase (GReg 0 (bytes_of "x") 5); RObject 16777217; OId (Some (0%nat, 0%nat))]) =
  Ok [RRes (GHandle 0); RRes (GId 16777217); RObj (Some (0%nat, 0%nat)); RRes (GId 1)].
Proof. vm_compute. reflexivity. Qed.

(** Properties of mappings, registered ids, registries and error ids. *)
From Coq Require Import String.
From Coq Require Import ZArith List Bool.
From Verif Require Import GoBase GoLists GoMap GoStrings MathModel RegModel RegSpec RegProofs.
Import ListNotations.
Open Scope Z_scope.

(** C44: every history of calls on a mapping gives the results of a list of
    pairs with distinct keys and distinct values, and both of its maps hold
    exactly those pairs afterwards. *)
Theorem C44_mapping_bijection : forall ops,
  sim_out holds (run_ops mp_step mp_zero ops) (run_ops bi_step None ops).
Proof. exact mapping_history. Qed.
Print Assumptions C44_mapping_bijection.
Example C44_ex :
  run_ops mp_step mp_zero [MInit; MInsert 1 10; MInsert 2 20; MInsert 1 30; MInsert 3 20; MRemoveByValue 10; MFind 1; MInsert 3 10; MReverseFind 10] =
  Ok (Mapping (Some [(2, 20); (3, 10)]) (Some [(20, 2); (10, 3)]),
      [MUnit; MId 1; MId 2; MDupKey; MDupValue; MBool true; MFound 0 false; MId 3; MFound 3 true]) /\
  run_ops mp_step mp_zero [MFind 1; MInsert 1 2] = Panic.
Proof. split; reflexivity. Qed.

(** C45: packing an id loses nothing. *)
Theorem C45_reged_id_roundtrip : forall g n, 0 <= g < 256 -> 0 <= n < 2 ^ 24 ->
  reged_ids (make_reged_id g n) = (g, n) /\ 0 <= make_reged_id g n < 2 ^ 32.
Proof. exact reged_id_pack. Qed.
Print Assumptions C45_reged_id_roundtrip.
(** ... and outside the ranges the parts are taken modulo 2^8 and 2^24. *)
Theorem C45_reged_id_any : forall g n, 0 <= g -> 0 <= n ->
  make_reged_id g n = (g mod 2 ^ 8) * 2 ^ 24 + n mod 2 ^ 24.
Proof. exact make_id_any. Qed.
Print Assumptions C45_reged_id_any.
Example C45_ex : make_reged_id 3 7 = 50331655 /\ reged_ids 50331655 = (3, 7) /\ make_reged_id 259 16777223 = 50331655.
Proof. repeat split; reflexivity. Qed.

(** C46: every history of calls gives the results of a list of names: ids count
    up from 1002 while fewer than 8998 names are registered, each id shows its own
    name, and no call panics. Missing from the full statement: the standard
    error's own id, see the refutation. *)
Theorem C46_error_ids_partial : forall ops, Forall er_ok ops ->
  results (run_ops er_step (fst err_start) ops) = Ok (snd (spec_ops er_spec [] ops)).
Proof. exact errors_history. Qed.
Print Assumptions C46_error_ids_partial.
Theorem C46_error_ids_distinct : forall ops s os, Forall er_ok ops ->
  run_ops er_step (fst err_start) ops = Ok (s, os) ->
  zlen (reg_ids os) <= 8998 /\
  forall i id, nth_error (reg_ids os) i = Some id -> id = 1002 + Z.of_nat i.
Proof. exact errors_ids. Qed.
Print Assumptions C46_error_ids_distinct.
Theorem C46_error_ids_refuted : exists s os,
  snd err_start = 1001 /\
  run_ops er_step (fst err_start) [EGet (snd err_start)] = Ok (s, os) /\ os <> [EName (bytes_of "standard error") true].
Proof.
  eexists. eexists. split; [reflexivity|]. split; [reflexivity|]. discriminate.
Qed.
Print Assumptions C46_error_ids_refuted.
Example C46_ex :
  results (run_ops er_step (fst err_start)
    [EReg (bytes_of "disk"); EReg (bytes_of "net"); EGet 1003; EString 1002; EText 1003 (bytes_of "x"); EGet 1004; EString 7; EShowAll]) =
  Ok [EId 1002 true; EId 1003 true; EName (bytes_of "net") true; EStr (bytes_of "error#1002 (disk)");
      EStr (bytes_of "error#1003 (net): x"); EName [] false; EStr (bytes_of "invalid error id:7");
      EStr (bytes_of "[errors] Count:3" ++ [10] ++ bytes_of "error#1001 (unknown error)" ++ [10] ++
            bytes_of "error#1002 (disk)" ++ [10] ++ bytes_of "error#1003 (net)")].
Proof. vm_compute. reflexivity. Qed.

(** C81: with at most 255 regers and fewer than 2^24 registrations, a registry is
    an array of cells addressed by id, and no two registrations share an id. *)
Theorem C81_registry_cells : forall ops, Forall id_ok ops -> count_new ops <= 255 -> count_reg ops < 2 ^ 24 ->
  results (run_ops rg_step regs_init ops) = results (run_ops ar_step (AReg false []) ops).
Proof. exact registry_cells. Qed.
Print Assumptions C81_registry_cells.
Theorem C81_registry_ids_distinct : forall ops s os, Forall id_ok ops -> count_new ops <= 255 -> count_reg ops < 2 ^ 24 ->
  run_ops rg_step regs_init ops = Ok (s, os) -> NoDup (issued ops os).
Proof. exact registry_ids. Qed.
Print Assumptions C81_registry_ids_distinct.
Example C81_ex :
  results (run_ops rg_step regs_init
    [GNew [97]; GNew [98]; GReg 1 [120] 5; GReg 1 [121] 6; GReg 0 [122] 7; GFinish; GSet 33554434 9; GGet 33554434; GGet 33554433;
     GName 16777217; GObjId 33554434; GMaxReg 0 0]) =
  Ok [GHandle 0; GHandle 1; GId 33554433; GId 33554434; GId 16777217; GUnit; GVal 9 true; GVal 9 true; GVal 5 true;
      GStr [122] true; GId 2; GLimit 0 false] /\
  run_ops rg_step regs_init [GNew [97]; GReg 0 [120] 5; GValid 16777218] = Panic.
Proof. split; vm_compute; reflexivity. Qed.

(** C82: after FinishReg no history with another NewUint32Reger or Reg completes. *)
Theorem C82_finish_is_final : forall before after s os,
  run_ops rg_step regs_init (before ++ GFinish :: after) = Ok (s, os) -> count_new after = 0 /\ count_reg after = 0.
Proof. exact run_after_finish. Qed.
Print Assumptions C82_finish_is_final.
Example C82_ex :
  results (run_ops rg_step regs_init [GNew [97]; GReg 0 [120] 5; GFinish; GGet 16777217]) = Ok [GHandle 0; GId 16777217; GUnit; GVal 5 true] /\
  run_ops rg_step regs_init [GNew [97]; GFinish; GReg 0 [120] 5] = Panic.
Proof. split; reflexivity. Qed.

(** C83: the limit given to MaxReg does not bind, and the 257th reger hands out
    the ids of the first. *)
Theorem C83_registry_limits_refuted :
  (exists s os, run_ops rg_step regs_init [GNew []; GMaxReg 0 1; GReg 0 [] 5; GReg 0 [] 6] = Ok (s, os) /\
     issued [GNew []; GMaxReg 0 1; GReg 0 [] 5; GReg 0 [] 6] os = [16777217; 16777218]) /\
  (exists s os, run_ops rg_step regs_init (repeat (GNew []) 257 ++ [GReg 0 [] 5; GReg 256 [] 6]) = Ok (s, os) /\
     issued (repeat (GNew []) 257 ++ [GReg 0 [] 5; GReg 256 [] 6]) os = [16777217; 16777217]).
Proof.
  split; eexists; eexists; split; vm_compute; reflexivity.
Qed.
Print Assumptions C83_registry_limits_refuted.
(** What does hold: the bound of MaxReg itself is checked, and with at most 255
    regers ids are not shared (C81). Missing: enforcement of either limit. *)
Theorem C83_registry_limits_partial : forall g m name,
  run_ops rg_step regs_init [GNew name; GMaxReg g m] =
  if g =? 0 then
    if (1 <=? m) && (m <? 2 ^ 24)
    then Ok (Regs false (Range 2 0 255) [Reger 1 name (Range 1 0 m) []], [GHandle 0; GLimit m true])
    else Ok (Regs false (Range 2 0 255) [Reger 1 name (Range 1 0 1024) []], [GHandle 0; GLimit 0 false])
  else Panic.
Proof. exact max_reg_exact. Qed.
Print Assumptions C83_registry_limits_partial.
Example C83_ex : results (run_ops rg_step regs_init [GNew [97]; GMaxReg 0 16777216]) = Ok [GHandle 0; GLimit 0 false].
Proof. reflexivity. Qed.

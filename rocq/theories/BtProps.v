(** Properties of debug/backtrace.go, debug/assert.go and of FileLine, RelateFileLine and Func of fs/file_line.go. *)
From Coq Require Import String.
From Coq Require Import ZArith List.
From Verif Require Import GoBase GoStrings MathSpec WorkModel BtModel BtSpec BtProofs.
Import ListNotations.
Local Open Scope Z_scope.

(** C173: Bt, BtFileLine and BtFunc describe the place that calls them; FileLine, RelateFileLine and Func of package fs likewise. *)
Theorem C173_bt_me : forall o f stk, frame_ok f ->
  tells_all (bytes_of " ") (bytes_of "FileLine") (bt o (f :: stk)) (f_call f) (f_pc f - 1) /\
  tells_line (bytes_of "") (bt_file_line o (f :: stk)) (f_call f) /\
  tells_func (bytes_of "") (bt_func o (f :: stk)) (f_call f).
Proof. exact bt_me. Qed.
Print Assumptions C173_bt_me.
Theorem C173_file_line : forall env self f stk,
  file_line self (f :: stk) = (l_file (f_call f), l_line (f_call f)) /\
  relate_file_line env self (f :: stk) = (relate_go env (l_file (f_call f)), l_line (f_call f)) /\
  (0 <= l_line (f_call f) -> exists d, is_decimal (l_line (f_call f)) d /\ func_line self (f :: stk) = l_func (f_call f) ++ bytes_of " : " ++ d).
Proof. exact file_line_exact. Qed.
Print Assumptions C173_file_line.
(** The place can be read off the text. *)
Theorem C173_readable : forall head sep text l pc l' pc', loc_ok l -> loc_ok l' ->
  tells_all head sep text l pc -> tells_all head sep text l' pc' -> l = l' /\ pc = pc'.
Proof. exact tells_all_inj. Qed.
Print Assumptions C173_readable.
Theorem C173_line_readable : forall head text l l', tells_line head text l -> tells_line head text l' ->
  l_file l = l_file l' /\ l_line l = l_line l'.
Proof. exact tells_line_inj. Qed.
Print Assumptions C173_line_readable.
Example C173_ex :
  bt ex_own ex_stack = bytes_of " Func{main.f} FileLine{/a/b.go : 10} pc{116F}" /\
  bt_func ex_own (tl ex_stack) = bytes_of " Func{main.main}" /\
  file_line (ex_frame "fs.FileLine" 22 22 9) ex_stack = (bytes_of "/a/b.go", 10) /\
  relate_file_line (bytes_of "/a") (ex_frame "fs.RelateFileLine" 30 30 9) ex_stack = (bytes_of "../b.go", 10).
Proof. repeat split; vm_compute; reflexivity. Qed.

(** C174: Caller(depth), CallerFileLine and CallerFunc describe the call of the function that calls them (depth 0), of that
    one's caller (depth 1) and so on; the text is empty when there are not so many. *)
Theorem C174_caller : forall o stk depth, 0 <= depth < 2 ^ 63 - 3 ->
  match nth_error stk (S (Z.to_nat depth)) with
  | Some f => frame_ok f ->
      tells_all (bytes_of "Caller: ") (bytes_of "FileLine") (caller o stk depth) (f_call f) (f_pc f - 1) /\
      tells_line (bytes_of "Caller:") (caller_file_line o stk depth) (f_call f) /\
      tells_func (bytes_of "Caller:") (caller_func o stk depth) (f_call f)
  | None => caller o stk depth = [] /\ caller_file_line o stk depth = [] /\ caller_func o stk depth = []
  end.
Proof. exact bt_caller. Qed.
Print Assumptions C174_caller.
Example C174_ex :
  caller ex_own ex_stack 0 = bytes_of "Caller: Func{main.main} FileLine{/a/b.go : 20} pc{1387}" /\
  caller_file_line ex_own ex_stack 1 = bytes_of "Caller: FileLine{/a/b.go : 200}" /\
  caller_func ex_own ex_stack 2 = [].
Proof. repeat split; vm_compute; reflexivity. Qed.

(** C175: Bts and CallStackList describe the call stack.  Full statement: every frame, with the place of its call.  What
    holds: the first 50 frames in order, from the caller on, with the place to which the call will return. *)
Theorem C175_bts_partial : forall o stk, Forall frame_ok stk -> exists ls, bts o stk = lines_of ls /\
  Z.of_nat (length ls) = Z.min 50 (Z.of_nat (length stk)) /\
  forall k f, (k < 50)%nat -> nth_error stk k = Some f -> exists l d, nth_error ls k = Some l /\ is_decimal (Z.of_nat k) d /\
    tells_all (bytes_of "#" ++ d ++ bytes_of " ") (bytes_of "File") l (f_ret f) (f_pc f).
Proof. exact bts_lines. Qed.
Print Assumptions C175_bts_partial.
Theorem C175_call_stack_list_partial : forall o stk k, Forall frame_ok stk ->
  let ls := call_stack_list o stk (2 + Z.of_nat k) in
  Z.of_nat (length ls) = Z.min 50 (Z.max 0 (Z.of_nat (length stk) - Z.of_nat k)) /\
  forall i f, (i < 50)%nat -> nth_error stk (k + i) = Some f -> exists l, nth_error ls i = Some l /\
    tells_all [] (bytes_of "FileLine") l (f_ret f) (f_pc f).
Proof. exact list_lines. Qed.
Print Assumptions C175_call_stack_list_partial.
(** The line of the call is not shown when the call is the last instruction of its line, and a stack of 51 frames has one line too few. *)
Theorem C175_bts_refuted : exists o stk f, Forall frame_ok stk /\ nth_error stk 0 = Some f /\ l_line (f_call f) = 10 /\
  bts o stk = bytes_of "#0 Func{main.f} File{/a/b.go : 11} pc{1170}" ++ [10] /\
  exists deep, Forall frame_ok deep /\ length deep = 51%nat /\ length (filter (Z.eqb 10) (bts o deep)) = 50%nat.
Proof.
  exists ex_own, [ex_frame "main.f" 10 11 4464], (ex_frame "main.f" 10 11 4464).
  assert (H : frame_ok (ex_frame "main.f" 10 11 4464)).
  { repeat split; cbn; try discriminate; intuition discriminate. }
  split; [repeat constructor; apply H|]. split; [reflexivity|]. split; [reflexivity|]. split; [vm_compute; reflexivity|].
  exists (repeat (ex_frame "main.f" 10 11 4464) 51). split; [|split; vm_compute; reflexivity].
  apply Forall_forall. intros x Hx. apply repeat_spec in Hx. subst x. exact H.
Qed.
Print Assumptions C175_bts_refuted.
Example C175_ex :
  call_stack_list ex_own ex_stack 3 = [bytes_of "Func{main.main} FileLine{/a/b.go : 20} pc{1388}"; bytes_of "Func{runtime.main} FileLine{/a/b.go : 201} pc{1770}"].
Proof. vm_compute. reflexivity. Qed.

(** C176: Assert returns true exactly if its argument is true; otherwise it panics with a text whose third line describes the
    function that called Assert (the second describes Assert). *)
Theorem C176_assert : forall o stk b, Forall frame_ok (o_assert o :: stk) ->
  (assert o stk b = inl true <-> b = true) /\
  (b = false -> exists ls, assert o stk b = inr (lines_of (bytes_of "Assert fail" :: ls)) /\
    (forall f, nth_error stk 0 = Some f -> exists l, nth_error ls 1 = Some l /\ tells_all (bytes_of "#1 ") (bytes_of "File") l (f_ret f) (f_pc f))).
Proof. exact assert_exact. Qed.
Print Assumptions C176_assert.
Example C176_ex : assert ex_own [ex_frame "main.f" 10 11 4464] false =
  inr (bytes_of "Assert fail" ++ [10] ++ bytes_of "#0 Func{debug.Assert} File{/a/b.go : 5} pc{5}" ++ [10] ++
       bytes_of "#1 Func{main.f} File{/a/b.go : 11} pc{1170}" ++ [10]).
Proof. vm_compute. reflexivity. Qed.

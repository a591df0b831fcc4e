(** Model of debug/backtrace.go, debug/assert.go and the functions of fs/file_line.go that ask for the caller.
    The runtime is represented by the call stack, a list of frames, innermost first; calls that the compiler
    has inlined have frames like others, as package runtime presents them. *)
From Coq Require Import String.
From Coq Require Import ZArith List Bool.
From Verif Require Import GoBase GoStrings MathModel RingModel PathModel WorkModel.
Import ListNotations.
Local Open Scope Z_scope.

(** A place in the program: function, file, line (runtime.Frame; used at debug/backtrace.go:75-79). *)
Record loc := Loc { l_func : list Z; l_file : list Z; l_line : Z }.
(** A frame: the place of the call it is executing; the place of the instruction that
    call will return to, which may be on a later line or, after a call that never returns, in another function; and the address of that
    instruction (package runtime; used at debug/backtrace.go:62-68, 76-79). *)
Record frame := Frame { f_call : loc; f_ret : loc; f_pc : Z }.

(** runtime.Caller, called by the function on top of the stack: address of the call, and its place
    (called at debug/backtrace.go:76, fs/file_line.go:22, 30, 38).  Simplified: a negative number counts as no frame. *)
Definition runtime_caller (stk : list frame) (skip : Z) : option (Z * loc) :=
  if skip <? 0 then None
  else match nth_error stk (Z.to_nat skip) with
       | Some f => Some (f_pc f - 1, f_call f)
       | None => None
       end.

(** runtime.Callers, called by the function on top of the stack, into [n] elements: number 0
    is runtime.Callers itself (called at debug/backtrace.go:62, 98).  Simplified: a negative number counts as 0. *)
Definition runtime_callers (self : frame) (stk : list frame) (skip : Z) (n : nat) : list frame :=
  firstn n (skipn (Z.to_nat skip) (self :: stk)).

(** An upper case hexadecimal digit (fmt verb %X; standard library, no /repo lines). *)
Definition hex_up (v : Z) : Z := if v <? 10 then 48 + v else 55 + v.
(** fmt verb %0X of an address (standard library, no /repo lines); [fuel] is at least the number of digits. *)
Fixpoint hex_loop (fuel : nat) (v : Z) : list Z :=
  match fuel with
  | O => []
  | S f => if v <? 16 then [hex_up v] else hex_loop f (v / 16) ++ [hex_up (v mod 16)]
  end.
(** The same for any address (fmt verb %0X; standard library, no /repo lines). *)
Definition fmt_X (v : Z) : list Z := hex_loop (S (Z.to_nat (Z.log2 v))) v.

(** debug/backtrace.go:17-22 the formats: 2, 3, 4 (iota is 1 at line 19). *)
Definition fmtFileLine : Z := 2.
(** debug/backtrace.go:20. *)
Definition fmtFunc : Z := 3.
(** debug/backtrace.go:21. *)
Definition fmtAll : Z := 4.
(** debug/backtrace.go:13. *)
Definition BtMe : Z := 2.
(** debug/backtrace.go:14. *)
Definition BtFather : Z := 3.

(** debug/backtrace.go:75-94 CallStackInfo; [stk] begins with its own frame. *)
Definition call_stack_info (stk : list frame) (nDepth fm : Z) (head : list Z) : list Z :=
  match runtime_caller stk nDepth with
  | None => []
  | Some (pc, l) =>
      if fm =? fmtFileLine then
        head ++ bytes_of " FileLine{" ++ l_file l ++ bytes_of " : " ++ fmt_d (l_line l) ++ bytes_of "}"
      else if fm =? fmtFunc then
        head ++ bytes_of " Func{" ++ l_func l ++ bytes_of "}"
      else
        head ++ bytes_of " Func{" ++ l_func l ++ bytes_of "} FileLine{" ++ l_file l ++ bytes_of " : " ++ fmt_d (l_line l) ++
          bytes_of "} pc{" ++ fmt_X pc ++ bytes_of "}"
  end.

(** The frames of the functions of package debug while they execute the calls in question; nothing is assumed
    about them (debug/backtrace.go:29-109, debug/assert.go:3-8). *)
Record own := Own {
  o_info : frame; (** CallStackInfo at line 76 *)
  o_outer : frame; (** Bt at line 30, BtFileLine 35, BtFunc 40, Caller 45, CallerFileLine 50, CallerFunc 55 *)
  o_callers : frame; (** runtime.Callers *)
  o_bts : frame; (** Bts at line 62, CallStackList at line 98 *)
  o_assert : frame (** Assert at debug/assert.go:5 *)
}.

(** debug/backtrace.go:29-31 Bt; [stk]: the stack of the program, the frame that calls Bt first. *)
Definition bt (o : own) (stk : list frame) : list Z := call_stack_info (o_info o :: o_outer o :: stk) BtMe fmtAll (bytes_of "").
(** debug/backtrace.go:34-36 BtFileLine. *)
Definition bt_file_line (o : own) (stk : list frame) : list Z := call_stack_info (o_info o :: o_outer o :: stk) BtMe fmtFileLine (bytes_of "").
(** debug/backtrace.go:39-41 BtFunc. *)
Definition bt_func (o : own) (stk : list frame) : list Z := call_stack_info (o_info o :: o_outer o :: stk) BtMe fmtFunc (bytes_of "").
(** debug/backtrace.go:44-46 Caller. *)
Definition caller (o : own) (stk : list frame) (depth : Z) : list Z :=
  call_stack_info (o_info o :: o_outer o :: stk) (int64 (BtFather + depth)) fmtAll (bytes_of "Caller:").
(** debug/backtrace.go:49-51 CallerFileLine. *)
Definition caller_file_line (o : own) (stk : list frame) (depth : Z) : list Z :=
  call_stack_info (o_info o :: o_outer o :: stk) (int64 (BtFather + depth)) fmtFileLine (bytes_of "Caller:").
(** debug/backtrace.go:54-56 CallerFunc. *)
Definition caller_func (o : own) (stk : list frame) (depth : Z) : list Z :=
  call_stack_info (o_info o :: o_outer o :: stk) (int64 (BtFather + depth)) fmtFunc (bytes_of "Caller:").

(** debug/backtrace.go:18 maxBtListLen. *)
Definition maxBtListLen : nat := 50.

(** debug/backtrace.go:63-70 the loop of Bts. *)
Fixpoint bts_loop (i : Z) (pcs : list frame) : list Z :=
  match pcs with
  | [] => []
  | f :: rest =>
      bytes_of "#" ++ fmt_d i ++ bytes_of " Func{" ++ l_func (f_ret f) ++ bytes_of "} File{" ++ l_file (f_ret f) ++
      bytes_of " : " ++ fmt_d (l_line (f_ret f)) ++ bytes_of "} pc{" ++ fmt_X (f_pc f) ++ bytes_of "}" ++ [10] ++ bts_loop (i + 1) rest
  end.
(** debug/backtrace.go:59-73 Bts. *)
Definition bts (o : own) (stk : list frame) : list Z :=
  bts_loop 0 (runtime_callers (o_callers o) (o_bts o :: stk) BtMe maxBtListLen).

(** debug/backtrace.go:96-109 CallStackList. *)
Definition call_stack_list (o : own) (stk : list frame) (nDepth : Z) : list (list Z) :=
  map (fun f => bytes_of "Func{" ++ l_func (f_ret f) ++ bytes_of "} FileLine{" ++ l_file (f_ret f) ++
                bytes_of " : " ++ fmt_d (l_line (f_ret f)) ++ bytes_of "} pc{" ++ fmt_X (f_pc f) ++ bytes_of "}")
      (runtime_callers (o_callers o) (o_bts o :: stk) nDepth maxBtListLen).

(** debug/assert.go:3-8 Assert: true, or the value of the panic. *)
Definition assert (o : own) (stk : list frame) (b : bool) : bool + list Z :=
  if b then inl b else inr (bytes_of "Assert fail" ++ [10] ++ bts o (o_assert o :: stk)).

(** fs/file_line.go:21-26 FileLine; [self]: its own frame. *)
Definition file_line (self : frame) (stk : list frame) : list Z * Z :=
  match runtime_caller (self :: stk) 1 with Some (_, l) => (l_file l, l_line l) | None => ([], 0) end.
(** fs/file_line.go:29-34 RelateFileLine; [env]: the value of GOPATH. *)
Definition relate_file_line (env : list Z) (self : frame) (stk : list frame) : list Z * Z :=
  match runtime_caller (self :: stk) 1 with Some (_, l) => (relate_go env (l_file l), l_line l) | None => ([], 0) end.
(** fs/file_line.go:37-43 Func. *)
Definition func_line (self : frame) (stk : list frame) : list Z :=
  match runtime_caller (self :: stk) 1 with Some (_, l) => l_func l ++ bytes_of " : " ++ fmt_d (l_line l) | None => [] end.

(** The call stack reported to the host (umkaGetCallStack) and to scripts (the trace of std::error), over the machine of CallModel.v.

    Simplifications: instruction numbers are integers without bounds (the code has at most 2^31-1 instructions); the names of the debug
    table have no zero bytes; all four output parameters are given. *)
From Coq Require Import ZArith Lia Bool List.
From Verif Require Import Base CallModel.
Import ListNotations.
Local Open Scope Z_scope.

(** src/umka_common.h, DebugInfo, one per instruction (src/umka_gen.c:74). *)
Record position : Type := MkPos { p_file : list Z; p_fn : list Z; p_line : Z }.

(** src/umka_vm.c:301-314, stackUnwind with a non-null ip: the base of the caller's frame and the return address. *)
Definition unwind (s : cstk) (base : Z) : outcome (option (Z * Z)) :=
  if base =? c_size s - 1 then Ok None else
  let* r := c_ret s base in
  if (r =? RETURN_FROM_FIBER) || (r =? RETURN_FROM_VM) then Ok None else
  let* w := c_read s base in match w with VB b => Ok (Some (b, r)) | _ => UB end.
(** src/umka_api.c:183-185: the loop over depth; the final base and ip. *)
Fixpoint climb (n : nat) (s : cstk) (base ip : Z) : outcome (option (Z * Z)) :=
  match n with
  | O => Ok (Some (base, ip))
  | S m => let* u := unwind s base in match u with Some (b, r) => climb m s b r | None => Ok None end
  end.
(** snprintf(buf, nameSize, "%s", s): at most nameSize - 1 characters. *)
Definition cut (n : nat) (s : list Z) : list Z := firstn (n - 1) s.
(** src/umka_api.c:187-199: the instruction, and its entry of the debug table. *)
Definition describe (dbg : list position) (nameSize : nat) (ip : Z) : outcome (Z * position) :=
  if ip <? 0 then UB else
  match nth_error dbg (Z.to_nat ip) with
  | Some p => Ok (ip, MkPos (cut nameSize (p_file p)) (cut nameSize (p_fn p)) (p_line p))
  | None => UB
  end.
(** src/umka_api.c:178-202, umkaGetCallStack; depth-- of the least int overflows. *)
Definition getCallStack (dbg : list position) (v : vm cstk) (depth : Z) (nameSize : nat) : outcome (option (Z * position)) :=
  let* x := getF _ v (vmf _ v) in
  if depth <=? - INT_MAX - 1 then UB else
  let* u := climb (Z.to_nat depth) (f_stk _ x) (c_base (f_stk _ x)) (f_ip _ x) in
  match u with
  | None => Ok None
  | Some (_, ip) => let* p := describe dbg nameSize ip in Ok (Some p)
  end.
(** src/umka_runtime.c:333-356, rtltrace; DEFAULT_STR_LEN is 255. *)
Definition rtltrace (dbg : list position) (v : vm cstk) (depth : Z) : outcome (option position) :=
  let* r := getCallStack dbg v depth 256 in
  match r with Some (_, p) => Ok (Some p) | None => Ok None end.
(** runtime/std.um:40-49, the loop of std::error with [n] more iterations allowed. The state is that of rtltrace, called by error; it is
    the same for each call except for the instruction of rtltrace and error themselves. *)
Fixpoint traceFrom (dbg : list position) (v : vm cstk) (depth : Z) (n : nat) : outcome (list position) :=
  match n with
  | O => Ok []
  | S m => let* p := rtltrace dbg v depth in
           match p with None => Ok [] | Some x => let* r := traceFrom dbg v (depth + 1) m in Ok (x :: r) end
  end.
Definition errorTrace (dbg : list position) (v : vm cstk) : outcome (list position) := traceFrom dbg v 2 8.
(** src/umka.c:87-98, printRuntimeError; MAX_CALL_STACK_DEPTH is a parameter. *)
Fixpoint printStack (dbg : list position) (v : vm cstk) (depth : Z) (nameSize n : nat) : outcome (list position) :=
  match n with
  | O => Ok []
  | S m => let* p := getCallStack dbg v depth nameSize in
           match p with None => Ok [] | Some (_, x) => let* r := printStack dbg v (depth + 1) nameSize m in Ok (x :: r) end
  end.

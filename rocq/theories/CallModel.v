(** The virtual machine stack, calls, stack frames, fibers and nested calls from external functions.

    A stack is an array of slots, addressed here by their numbers within it; address 0 is the lowest. A slot holds a tagged value; using a
    value of another kind is undefined behaviour, as is an access outside the array. Simplifications: variables occupy whole slots (for
    smaller ones see MemModel.v); memory outside the stacks is a function from addresses to values; instructions that only replace the
    values on the top of the stack are given by a function ([IOp]). Reference counts of heap blocks are modelled in HeapModel.v; a
    released fiber (IFree) is memory that cannot be accessed. *)
From Coq Require Import ZArith Lia Bool List.
From Verif Require Import Base.
Import ListNotations.
Local Open Scope Z_scope.

(** src/umka_common.h:175-201, ParamLayout and LocalVarLayout: the slots of parameters and local variables. *)
Record layout : Type := MkLay { l_params : Z; l_locals : Z }.

(** A number, the address of a slot of a fiber's stack, a saved frame base, a frame layout, a fiber. *)
Inductive val : Type := VZ (z : Z) | VS (f : nat) (i : Z) | VB (i : Z) | VL (l : layout) | VF (f : nat).

(** src/umka_vm.h:24, 38-42. *)
Definition MIN_FREE : Z := 1024.
Definition RETURN_FROM_VM : Z := -2.
Definition RETURN_FROM_FIBER : Z := -1.
Definition REG_RESULT : nat := 0.

Inductive instr : Type :=
| IPush (v : val) | IPushZero (n : nat) | IPushLocalPtr (off : Z) | IPushLocal (off : Z) | IPushReg (r : nat)
| IPop (n : nat) | IPopReg (r : nat) | IDup | ISwap | IZero (n : nat) | IDeref
| IAssign (swap : bool) (n : option nat)      (* Some n: a structured value of n slots *)
| IAssignParam (n : option nat)
| IRef (delta : Z)                            (* OP_REF_CNT for a pointer *)
| IOp (pops : nat) (f : list val -> outcome (list val))
| ISort (n : nat)                             (* sort() of items of n slots, with the built-in comparison *)
| IGoto (a : Z) | IGotoIf (a : Z) | IGotoIfNot (a : Z)
| ICall (a : Z) | ICallInd (n : nat) | ICallExtern (x : nat) | IMakeFiber | IResume | IValid | IFree
| IReturn (n : nat) | IEnter (l : layout) | ILeave | IHalt.

(** An external function: it returns a value, or calls an Umka function with some parameter slots and goes on with the result. *)
Inductive hostprog : Type := HRet (v : val) | HCall (entry : Z) (ps : list val) (k : val -> hostprog).

(** The operations on a stack. *)
Record sops (S : Type) : Type := MkOps {
  o_top : S -> Z;                               (* the slots below the top *)
  o_push : S -> list val -> outcome S;          (* the first of the list becomes the top *)
  o_pop : S -> nat -> outcome (list val * S);
  o_read : S -> Z -> outcome val;
  o_write : S -> Z -> val -> outcome S;
  o_local : S -> Z -> outcome Z;                (* the address of a parameter or local variable *)
  o_params : S -> outcome (list val);
  o_enter : S -> layout -> outcome S;
  o_leave : S -> outcome S;
  o_ref : S -> Z -> Z -> outcome S;             (* a reference to an address is added or removed *)
  o_new : S -> outcome S                        (* the stack of a new fiber *)
}.
Arguments o_top {S}. Arguments o_push {S}. Arguments o_pop {S}. Arguments o_read {S}. Arguments o_write {S}. Arguments o_local {S}.
Arguments o_params {S}. Arguments o_enter {S}. Arguments o_leave {S}. Arguments o_ref {S}. Arguments o_new {S}.

(** ** The machine *)
Section Machine.
Variable S : Type.
Variable o : sops S.
Variable code : Z -> option instr.
Variable ext : nat -> list val -> hostprog.

(** src/umka_vm.h:179-192. *)
Record fiber : Type := MkFib { f_stk : S; f_ip : Z; f_regs : list val; f_parent : option nat; f_alive : bool }.
(** Fibers by number, None once released; the variable "fiber" of the running vmLoop; vm->fiber (and vm->pages.fiber); the external
    functions waiting for a nested vmLoop, each with its fiber and instruction; memory outside the stacks. *)
Record vm : Type := MkVm { fibs : list (option fiber); loopf : nat; vmf : nat; hosts : list (nat * Z * (val -> hostprog)); gm : Z -> val }.
Inductive sres : Type := Go (v : vm) | Stop (v : vm).

Definition getF (v : vm) (f : nat) : outcome fiber := match nth_error (fibs v) f with Some (Some x) => Ok x | _ => UB end.
Fixpoint upd {A} (l : list A) (n : nat) (x : A) : list A := match l, n with [], _ => [] | _ :: r, O => x :: r | a :: r, Datatypes.S m => a :: upd r m x end.
Definition setF (v : vm) (f : nat) (x : option fiber) : vm := MkVm (upd (fibs v) f x) (loopf v) (vmf v) (hosts v) (gm v).
Definition withStk (x : fiber) (s : S) : fiber := MkFib s (f_ip x) (f_regs x) (f_parent x) (f_alive x).
Definition withIp (x : fiber) (ip : Z) : fiber := MkFib (f_stk x) ip (f_regs x) (f_parent x) (f_alive x).
Definition withReg (x : fiber) (r : nat) (w : val) : fiber := MkFib (f_stk x) (f_ip x) (upd (f_regs x) r w) (f_parent x) (f_alive x).
Definition die (x : fiber) : fiber := MkFib (f_stk x) (f_ip x) (f_regs x) (f_parent x) false.
Definition switchTo (v : vm) (f : nat) : vm := MkVm (fibs v) f f (hosts v) (gm v).
Definition setLoop (v : vm) (f : nat) : vm := MkVm (fibs v) f (vmf v) (hosts v) (gm v).
Definition setHosts (v : vm) (h : list (nat * Z * (val -> hostprog))) : vm := MkVm (fibs v) (loopf v) (vmf v) h (gm v).
Definition setGm (v : vm) (m : Z -> val) : vm := MkVm (fibs v) (loopf v) (vmf v) (hosts v) m.

(** doDerefImpl and doAssignImpl (src/umka_vm.c:977-1065): the slot at a pointer, [k] slots further. *)
Definition load (v : vm) (p : val) (k : Z) : outcome val :=
  match p with
  | VS f i => let* x := getF v f in o_read o (f_stk x) (i + k)
  | VZ a => if a =? 0 then Err ENull else Ok (gm v (a + k))
  | _ => UB
  end.
Definition store (v : vm) (p : val) (k : Z) (w : val) : outcome vm :=
  match p with
  | VS f i => let* x := getF v f in let* s := o_write o (f_stk x) (i + k) w in Ok (setF v f (Some (withStk x s)))
  | VZ a => if a =? 0 then Err ENull else Ok (setGm v (fun b => if b =? a + k then w else gm v b))
  | _ => UB
  end.
Fixpoint loads (v : vm) (p : val) (k : Z) (n : nat) : outcome (list val) :=
  match n with O => Ok [] | Datatypes.S m => let* w := load v p k in let* r := loads v p (k + 1) m in Ok (w :: r) end.
Fixpoint stores (v : vm) (p : val) (k : Z) (ws : list val) : outcome vm :=
  match ws with [] => Ok v | w :: r => let* v1 := store v p k w in stores v1 p (k + 1) r end.

(** The stack of the loop's fiber. *)
Definition onStk (v : vm) (f : S -> outcome S) : outcome vm :=
  let* x := getF v (loopf v) in let* s := f (f_stk x) in Ok (setF v (loopf v) (Some (withStk x s))).
Definition pushes (v : vm) (ws : list val) : outcome vm := onStk v (fun s => o_push o s ws).
Definition pops (v : vm) (n : nat) : outcome (list val * vm) :=
  let* x := getF v (loopf v) in let* (ws, s) := o_pop o (f_stk x) n in Ok (ws, setF v (loopf v) (Some (withStk x s))).
Definition pop1 (v : vm) : outcome (val * vm) :=
  let* (ws, v1) := pops v 1 in match ws with [w] => Ok (w, v1) | _ => UB end.
Definition pop2 (v : vm) : outcome (val * val * vm) :=
  let* (ws, v1) := pops v 2 in match ws with [w; w2] => Ok (w, w2, v1) | _ => UB end.
Definition goto (v : vm) (ip : Z) : outcome vm := let* x := getF v (loopf v) in Ok (setF v (loopf v) (Some (withIp x ip))).
Definition next (v : vm) : outcome vm := let* x := getF v (loopf v) in Ok (setF v (loopf v) (Some (withIp x (f_ip x + 1)))).
Definition go (x : outcome vm) : outcome sres := let* v := x in Ok (Go v).

(** src/umka_vm.c:763-765: all fibers from vm->fiber through their parents; the address is in the stack of fiber [f] only. *)
Fixpoint refChain (n : nat) (v : vm) (g : nat) (f : nat) (i d : Z) : outcome vm :=
  match n with
  | O => Err EFuel
  | Datatypes.S m =>
      let* x := getF v g in
      let* v1 := if Nat.eqb g f then let* s := o_ref o (f_stk x) i d in Ok (setF v g (Some (withStk x s))) else Ok v in
      match f_parent x with
      | Some p => refChain m v1 p f i d
      | None => Ok v1
      end
  end.

(** vmCall (src/umka_vm.c:4154-4192) up to the loop, made by external function [h] (none for a call by the host program). *)
Definition enterCall (v : vm) (h : list (nat * Z * (val -> hostprog))) (e : Z) (ps : list val) : outcome vm :=
  let* x := getF v (vmf v) in
  if negb (f_alive x) then Err EOther else
  if e <=? 0 then Err EIllegalFn else
  let* s := o_push o (f_stk x) (VZ RETURN_FROM_VM :: ps) in
  Ok (setLoop (setHosts (setF v (vmf v) (Some (withIp (withStk x s) e))) h) (vmf v)).
(** An external function goes on: doCallExtern (3859-3870), in fiber [c] at instruction [ip]. *)
Definition runHost (v : vm) (c : nat) (ip : Z) (h : list (nat * Z * (val -> hostprog))) (p : hostprog) : outcome sres :=
  match p with
  | HRet w => let* x := getF v c in Ok (Go (setLoop (setHosts (setF v c (Some (withIp (withReg x REG_RESULT w) (ip + 1)))) h) c))
  | HCall e ps k => go (enterCall v ((c, ip, k) :: h) e ps)
  end.
(** The return of a vmLoop; vmCall saves the result (4194-4196). *)
Definition endLoop (v : vm) : outcome sres :=
  match hosts v with
  | [] => Ok (Stop v)
  | (c, ip, k) :: h => let* x := getF v (vmf v) in runHost v c ip h (k (nth REG_RESULT (f_regs x) (VZ 0)))
  end.

(** doAllocFiber (src/umka_vm.c:1627-1655) by the make(fiber, f) builtin: the closure is an entry point and two slots of captured
    variables. *)
Definition makeFiber (v : vm) : outcome vm :=
  let* (t, c, v1) := pop2 v in
  let* cl := loads v1 c 0 3 in
  match cl with
  | [VZ e; u1; u2] =>
      if e <=? 0 then Err EIllegalFn else
      let* x := getF v1 (loopf v1) in
      let* s0 := o_new o (f_stk x) in
      let* s := o_push o s0 [VZ RETURN_FROM_FIBER; u1; u2] in
      let child := MkFib s e (f_regs x) (Some (loopf v1)) (f_alive x) in
      let v2 := MkVm (fibs v1 ++ [Some child]) (loopf v1) (vmf v1) (hosts v1) (gm v1) in
      let* v3 := pushes v2 [VF (length (fibs v1))] in
      next v3
  | _ => UB
  end.

(** doBuiltinResume (3054-3063) and the case OP_CALL_BUILTIN of vmLoop (4118-4130). *)
Definition resume (v : vm) : outcome sres :=
  let* (c, v1) := pop1 v in
  let* v2 := next v1 in
  let* x := getF v2 (loopf v2) in
  let* target := match c with
                 | VF f => let* y := getF v2 f in Ok (if f_alive y then f else loopf v2)
                 | VZ 0 => Ok (match f_parent x with Some p => p | None => loopf v2 end)
                 | _ => UB
                 end in
  if negb (f_alive x) then endLoop v2 else Ok (Go (switchTo v2 target)).

(** doReturn (3984-4001) and the case OP_RETURN of vmLoop (4131-4143). *)
Definition ret (v : vm) (n : nat) : outcome sres :=
  let* (r, v1) := pop1 v in
  match r with
  | VZ a =>
      let* v2 :=
        if a =? RETURN_FROM_FIBER then
          let* x := getF v1 (loopf v1) in
          let v2 := setF v1 (loopf v1) (Some (die x)) in
          Ok (match f_parent x with Some p => switchTo v2 p | None => v2 end)
        else
          let* (_, v2) := pops v1 n in goto v2 a in
      let* y := getF v2 (loopf v2) in
      if negb (f_alive y) || (f_ip y =? RETURN_FROM_VM) then endLoop v2 else Ok (Go v2)
  | _ => UB
  end.

Definition topOf (v : vm) : outcome Z := let* x := getF v (loopf v) in Ok (o_top o (f_stk x)).

(** One iteration of vmLoop (4062-4151). *)
Definition exec (v : vm) (i : instr) : outcome sres :=
  let* x := getF v (loopf v) in
  match i with
  | IPush w => go (let* v1 := pushes v [w] in next v1)   (* 3090-3094 *)
  | IPushZero n =>   (* 3105-3116 *)
      let* t := topOf v in
      if t - Z.of_nat n <? MIN_FREE then Err EStackOverflow else go (let* v1 := pushes v (repeat (VZ 0) n) in next v1)
  | IPushLocalPtr off => go (let* a := o_local o (f_stk x) off in let* v1 := pushes v [VS (loopf v) a] in next v1)   (* 3119-3123 *)
  | IPushLocal off =>   (* 3135-3140 *)
      go (let* a := o_local o (f_stk x) off in let* w := load v (VS (loopf v) a) 0 in let* v1 := pushes v [w] in next v1)
  | IPushReg r => go (let* v1 := pushes v [nth r (f_regs x) (VZ 0)] in next v1)   (* 3143-3147 *)
  | IPop n => go (let* (_, v1) := pops v n in next v1)   (* 3161-3165 *)
  | IPopReg r =>   (* 3168-3172 *)
      go (let* (w, v1) := pop1 v in let* y := getF v1 (loopf v1) in next (setF v1 (loopf v1) (Some (withReg y r w))))
  | IDup => go (let* (w, v1) := pop1 v in let* v2 := pushes v1 [w; w] in next v2)   (* 3175-3180 *)
  | ISwap => go (let* (a, b, v1) := pop2 v in let* v2 := pushes v1 [b; a] in next v2)   (* 3183-3187 *)
  | IZero n => go (let* (p, v1) := pop1 v in let* v2 := stores v1 p 0 (repeat (VZ 0) n) in next v2)   (* 3190-3196 *)
  | IDeref => go (let* (p, v1) := pop1 v in let* w := load v1 p 0 in let* v2 := pushes v1 [w] in next v2)   (* 3199-3203 *)
  | IAssign swap n =>   (* 3206-3224 *)
      go (let* (a, b, v1) := pop2 v in
          let lhs := if swap then a else b in
          let rhs := if swap then b else a in
          let* ws := match n with None => Ok [rhs] | Some m => loads v1 rhs 0 m end in
          let* v2 := stores v1 lhs 0 ws in next v2)
  | IAssignParam None => go (next v)   (* 3227-3243: the value is in its slot *)
  | IAssignParam (Some n) =>
      let* t := topOf v in
      if t - (Z.of_nat n - 1) <? MIN_FREE then Err EStackOverflow else
      go (let* (p, v1) := pop1 v in let* ws := loads v p 0 n in let* v2 := pushes v1 ws in next v2)
  | IRef d =>   (* 3246-3256 with doRefCntImpl; a pointer to a heap block or a global variable changes no frame *)
      go (let* (p, v1) := pop1 v in
          let* v2 := match p with VS f a => refChain (length (fibs v)) v (vmf v) f a d | _ => Ok v end in next v2)
  | IOp n f => go (let* (ws, v1) := pops v n in let* rs := f ws in let* v2 := pushes v1 rs in next v2)
  | ISort n =>   (* 2814-2836: the temporary item is on the stack *)
      go (let* (_, v1) := pops v 3 in let* v2 := pushes v1 (repeat (VZ 0) n) in let* (_, v3) := pops v2 n in next v3)
  | IGoto a => go (goto v a)   (* 3807-3830 *)
  | IGotoIf a => go (let* (w, v1) := pop1 v in match w with VZ z => if z =? 0 then next v1 else goto v1 a | _ => UB end)
  | IGotoIfNot a => go (let* (w, v1) := pop1 v in match w with VZ z => if z =? 0 then goto v1 a else next v1 | _ => UB end)
  | ICall a => go (let* v1 := pushes v [VZ (f_ip x + 1)] in goto v1 a)   (* 3833-3841 *)
  | ICallInd n =>   (* 3844-3856 *)
      go (let* (ws, _) := pops v (n + 1) in
          match nth n ws (VZ 0) with
          | VZ e => if e =? 0 then Err EIllegalFn else let* v1 := pushes v [VZ (f_ip x + 1)] in goto v1 e
          | _ => UB
          end)
  | ICallExtern n => let* ps := o_params o (f_stk x) in runHost v (loopf v) (f_ip x) (hosts v) (ext n ps)
  | IMakeFiber => go (makeFiber v)
  | IResume => resume v
  | IValid =>   (* 2992-2997 *)
      go (let* (p, v1) := pop1 v in
          let* b := match p with VF f => let* y := getF v1 f in Ok (f_alive y) | VZ 0 => Ok false | _ => UB end in
          let* v2 := pushes v1 [VZ (b2z b)] in next v2)
  | IFree =>   (* 1369-1397: the last reference to a fiber is removed *)
      go (let* (p, v1) := pop1 v in
          match p with
          | VF f => let* y := getF v1 f in if f_alive y then Err EOther else next (setF v1 f None)
          | _ => UB
          end)
  | IReturn n => ret v n
  | IEnter l =>   (* 4004-4033 *)
      let* t := topOf v in
      if t - l_locals l <? MIN_FREE then Err EStackOverflow else go (let* v1 := onStk v (fun s => o_enter o s l) in next v1)
  | ILeave => go (let* v1 := onStk v (o_leave o) in next v1)   (* 4036-4052 *)
  | IHalt => let* y := getF v (vmf v) in endLoop (setF v (vmf v) (Some (die y)))   (* 4055-4059 *)
  end.
Definition step (v : vm) : outcome sres :=
  let* t := topOf v in
  if t <? MIN_FREE then Err EStackOverflow else
  let* x := getF v (loopf v) in
  match code (f_ip x) with
  | Some i => exec v i
  | None => UB
  end.
(** [n] iterations. *)
Fixpoint run (n : nat) (v : vm) : outcome sres :=
  match n with
  | O => Ok (Go v)
  | Datatypes.S m => let* r := step v in match r with Go v1 => run m v1 | Stop v1 => Ok (Stop v1) end
  end.
End Machine.

(** ** The stack of the virtual machine *)
Record cstk : Type := MkC { c_mem : list val; c_top : Z; c_base : Z }.
Definition c_size (s : cstk) : Z := Z.of_nat (length (c_mem s)).

Definition c_read (s : cstk) (i : Z) : outcome val :=
  if (0 <=? i) && (i <? c_size s) then Ok (nth (Z.to_nat i) (c_mem s) (VZ 0)) else UB.
Definition c_write (s : cstk) (i : Z) (w : val) : outcome cstk :=
  if (0 <=? i) && (i <? c_size s) then Ok (MkC (upd (c_mem s) (Z.to_nat i) w) (c_top s) (c_base s)) else UB.
(** *--top = w, for each of the list, the last first. *)
Definition c_push (s : cstk) (ws : list val) : outcome cstk :=
  let t := c_top s - Z.of_nat (length ws) in
  if (t <? 0) || (c_size s <? c_top s) then UB else
  Ok (MkC (firstn (Z.to_nat t) (c_mem s) ++ ws ++ skipn (Z.to_nat (c_top s)) (c_mem s)) t (c_base s)).
(** *top++, [n] times. *)
Definition c_pop (s : cstk) (n : nat) : outcome (list val * cstk) :=
  if (c_top s <? 0) || (c_size s <? c_top s + Z.of_nat n) then UB else
  Ok (firstn n (skipn (Z.to_nat (c_top s)) (c_mem s)), MkC (c_mem s) (c_top s + Z.of_nat n) (c_base s)).
(** src/umka_vm.c:3119-3123. *)
Definition c_local (s : cstk) (off : Z) : outcome Z := Ok (c_base s + off).
(** src/umka_vm.c:271-298: the header of a frame. *)
Definition c_layout (s : cstk) (base : Z) : outcome layout := let* w := c_read s (base - 2) in match w with VL l => Ok l | _ => UB end.
Definition c_refs (s : cstk) (base : Z) : outcome Z := let* w := c_read s (base - 1) in match w with VZ z => Ok z | _ => UB end.
Definition c_ret (s : cstk) (base : Z) : outcome Z := let* w := c_read s (base + 1) in match w with VZ z => Ok z | _ => UB end.
Definition c_params (s : cstk) : outcome (list val) :=
  let* l := c_layout s (c_base s) in
  let a := c_base s + 2 in
  if (a <? 0) || (c_size s <? a + l_params l) then UB else Ok (firstn (Z.to_nat (l_params l)) (skipn (Z.to_nat a) (c_mem s))).
(** src/umka_vm.c:4013-4027, doEnterFrame after the check. *)
Definition c_enter (s : cstk) (l : layout) : outcome cstk :=
  if l_locals l <? 0 then UB else
  let* s1 := c_push s [VB (c_base s)] in
  let base := c_top s1 in
  let* s2 := c_push s1 [VZ 0] in
  let* s3 := c_push s2 [VL l] in
  let* s4 := c_push s3 (repeat (VZ 0) (Z.to_nat (l_locals l))) in
  Ok (MkC (c_mem s4) (c_top s4) base).
(** src/umka_vm.c:4036-4052, doLeaveFrame. *)
Definition c_leave (s : cstk) : outcome cstk :=
  let* r := c_refs s (c_base s) in
  if negb (r =? 0) then Err EEscape else
  let* (ws, s1) := c_pop (MkC (c_mem s) (c_base s) (c_base s)) 1 in
  match ws with
  | [VB b] => Ok (MkC (c_mem s1) (c_top s1) b)
  | _ => UB
  end.
(** src/umka_vm.c:301-314, stackUnwind: None if there is no caller. *)
Definition c_unwind (s : cstk) (base : Z) : outcome (option Z) :=
  if base =? c_size s - 1 then Ok None else
  let* r := c_ret s base in
  if (r =? RETURN_FROM_FIBER) || (r =? RETURN_FROM_VM) then Ok None else
  let* w := c_read s base in match w with VB b => Ok (Some b) | _ => UB end.
(** src/umka_vm.c:317-337, stackUpdateFrameRefCnt; [n] bounds the number of frames. *)
Fixpoint c_findFrame (n : nat) (s : cstk) (base i : Z) : outcome Z :=
  match n with
  | O => Err EFuel
  | Datatypes.S m =>
      let* l := c_layout s base in
      if i <? base + 2 + l_params l then Ok base else
      let* u := c_unwind s base in
      match u with
      | None => Err EOther
      | Some b => c_findFrame m s b i
      end
  end.
Definition c_ref (s : cstk) (i d : Z) : outcome cstk :=
  if (c_top s <=? i) && (i <? c_size s) then
    if c_base s =? c_size s - 1 then Ok s else
    let* b := c_findFrame (length (c_mem s)) s (c_base s) i in
    let* r := c_refs s b in
    c_write s (b - 1) (VZ (r + d))
  else Ok s.
(** src/umka_vm.c:1636-1637. *)
Definition c_new (s : cstk) : outcome cstk := Ok (MkC (repeat (VZ 0) (length (c_mem s))) (c_size s - 1) (c_size s - 1)).

Definition cops : sops cstk := MkOps cstk c_top c_push c_pop c_read c_write c_local c_params c_enter c_leave c_ref c_new.

(** vmInit and vmReset (src/umka_vm.c:896-936): the main fiber before any call; [m] is the memory outside the stacks. *)
Definition init {St} (s : St) (m : Z -> val) : vm St := MkVm St [Some (MkFib St s 0 (repeat (VZ 0) 4) None true)] 0%nat 0%nat [] m.
Definition c_init (size : nat) : cstk := MkC (repeat (VZ 0) size) (Z.of_nat size - 1) (Z.of_nat size - 1).
(** Calls by the host program one after another, each followed for some number of instructions: entry point, parameters, instructions. *)
Fixpoint session {St} (o : sops St) (code : Z -> option instr) (ext : nat -> list val -> hostprog) (calls : list (Z * list val * nat)) (v : vm St) : outcome (sres St) :=
  match calls with
  | [] => Ok (Stop St v)
  | (e, ps, n) :: r =>
      let* v1 := enterCall St o v [] e ps in
      let* x := run St o code ext n v1 in
      match x with Stop _ v2 => session o code ext r v2 | Go _ v2 => Ok (Go St v2) end
  end.

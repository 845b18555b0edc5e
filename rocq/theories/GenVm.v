(** The instructions the optimiser deals with, src/umka_vm.c, run on an operand stack, registers and memory. *)
From Coq Require Import ZArith Bool List.
From Verif Require Import Base NumModel MemModel BlkModel GenModel.
Import ListNotations.
Local Open Scope Z_scope.

(** A slot with a note, not present in the code, saying which kind of constant it was made from, if it is a constant known to the
    generator. No result depends on notes except the checks of [strict] below. *)
Definition slot : Type := Z * option kind.

Section Vm.
(** [H] is everything else: the heap, files, the caller's frames and so on. *)
Variable H : Type.

(** src/umka_vm.h:179-192, struct Fiber: operand stack, top first (the part of the stack below the local variables, which are in
    memory); memory; registers other than REG_SELF; base; the number of slots the operand stack may have, so that
    top - stack >= MEM_MIN_FREE_STACK. *)
Record core : Type := mkcore { stk : list slot; mm : mem; hp : H; rres : slot; rheap : slot; rsw : slot; rlist : slot; base : Z; lim : Z }.
(** REG_SELF, and a note whether it was written and not yet read. *)
Record st : Type := mkst { co : core; self : slot; fresh : bool }.
(** Result of running: an error keeps the memory. *)
Inductive res : Type := ROk (s : st) | RErr (e : err) (m : mem) (h : H) | RUB.
Inductive ores : Type := OOk (c : core) | OErr (e : err) (m : mem) (h : H) | OUB.

(** Parts of the machine that are not modelled: the C library; doRefCntImpl (src/umka_vm.c:1218-1403); the address found by
    GET_DYNARRAY_PTR and GET_MAP_PTR; ++ and -- on a variable; getStrDims; the instructions IOther stands for, and what they leave in
    REG_SELF. [estatic] and [evsize] describe the program: which addresses belong to global data, and how large the local variable
    at a frame offset is. *)
Record env : Type := mkenv {
  elm : libm;
  erefcnt : bool -> ty -> Z -> core -> ores;
  esel : option ty -> core -> ores;
  eincdec : op -> kind -> core -> ores;
  estr : core -> Z -> Z * Z;
  eopq : nat -> core -> ores;
  eself : core -> slot -> slot;
  estatic : Z -> bool;
  evsize : Z -> Z }.
Variable E : env.
(** Set to check that the program keeps to the rules of the compiler: see [step]. *)
Variable strict : bool.

Definition with_stk (c : core) (l : list slot) : core := mkcore l (mm c) (hp c) (rres c) (rheap c) (rsw c) (rlist c) (base c) (lim c).
Definition with_mm (c : core) (m : mem) : core := mkcore (stk c) m (hp c) (rres c) (rheap c) (rsw c) (rlist c) (base c) (lim c).
Definition wc (s : st) (c : core) : st := mkst c (self s) (fresh s).
Definition push (c : core) (v : slot) : core := with_stk c (v :: stk c).
Definition ferr (c : core) (e : err) : ores := OErr e (mm c) (hp c).
(** A C computation in the middle of an instruction. *)
Definition lift {A} (c : core) (x : outcome A) (f : A -> ores) : ores :=
  match x with Ok a => f a | Err e => ferr c e | UB => OUB end.
Definition obind (x : ores) (f : core -> ores) : ores := match x with OOk c => f c | r => r end.
(** The rest of an instruction; code outside the model may change REG_SELF. *)
Definition keep (s : st) (x : ores) : res := match x with OOk c => ROk (wc s c) | OErr e m h => RErr e m h | OUB => RUB end.
Definition lose (s : st) (x : ores) : res :=
  match x with OOk c => ROk (mkst c (eself E c (self s)) false) | OErr e m h => RErr e m h | OUB => RUB end.

Definition inframe (c : core) (p : Z) : bool := (INT_MIN <=? p - base c) && (p - base c <=? INT_MAX).
(** Pointer plus offset. Rules: the result is an address, not null, and a pointer into the frame does not leave it. *)
Definition addp (c : core) (p d : Z) : option Z :=
  if strict && (negb (in_s64b (p + d)) || (p + d =? 0) || (inframe c p && negb (inframe c (p + d)))) then None else Some (s64 (p + d)).
(** src/umka_vm.c:977-1015, doDerefImpl on the top slot. *)
Definition derefTop (k : kind) (c : core) : ores :=
  match stk c with
  | (p, _) :: r => lift c (doDeref (mm c) k p) (fun v => OOk (with_stk c ((v, None) :: r)))
  | [] => OUB
  end.
(** src/umka_vm.c:3119-3132. *)
Definition pushLocal (o : Z) (c : core) : ores := match addp c (base c) o with Some p => OOk (push c (p, None)) | None => OUB end.
(** memset(p, 0, n). Rule: a local variable is zeroed as a whole. *)
Definition zeroAt (p n : Z) (c : core) : ores :=
  if (n <? 0) || (INT_MAX <? n) || (strict && inframe c p && (n <? evsize E (p - base c))) then OUB
  else OOk (with_mm c (zero_range (mm c) p n)).
(** src/umka_vm.c:3611-3641, doGetArrayPtr without the dereferencing. Rule: a constant index is an int. *)
Definition getArray (size len : Z) (c : core) : ores :=
  match stk c with
  | (index, n) :: (data, _) :: r =>
      if strict && (0 <=? len) && match n with Some k => isInt k && negb (s32 index =? index) | None => false end then OUB
      else
        if (0 <=? len) && (data =? 0) then ferr c ENull
        else
          let dl := if 0 <=? len then (data, len) else estr E c data in
          if (index <? 0) || (snd dl - 1 <? index) then ferr c EIndex
          else match addp c (fst dl) (size * index) with
               | Some p => OOk (with_stk c ((p, None) :: r))
               | None => OUB
               end
  | _ => OUB
  end.
(** src/umka_vm.c:3708-3721, doGetFieldPtr without the dereferencing. *)
Definition getField (o : Z) (c : core) : ores :=
  match stk c with
  | (p, _) :: r => if p =? 0 then ferr c ENull
                   else match addp c p o with Some q => OOk (with_stk c ((q, None) :: r)) | None => OUB end
  | [] => OUB
  end.
(** src/umka_vm.c:3206-3224, doAssign. *)
Definition assign (k : kind) (n lhs rhs : Z) (r : list slot) (c : core) : ores :=
  lift c (doAssign (mm c) k lhs rhs n) (fun m => OOk (with_stk (with_mm c m) r)).
(** src/umka_vm.c:3246-3255, doRefCnt. Rule: the type is not larger than the local variable it is in. *)
Definition refCnt (inc : bool) (t : ty) (p : Z) (c : core) : ores :=
  if strict && kindStructured (tk t) && inframe c p && (evsize E (p - base c) <? tsz t) then OUB else erefcnt E inc t p c.
(** src/umka_vm.c:3288-3317, doRefCntAssign, after the operands were popped. Rule: the type is a type of variables. *)
Definition refCntAssign (lft : bool) (t : ty) (lhs rhs : Z) (c : core) : ores :=
  if strict && match tk t with KNone | KForward | KVoid | KNull => true | _ => false end then OUB else
  obind (if lft then OOk c else erefcnt E true t rhs c) (fun c =>
  lift c (doDeref (mm c) (tk t) lhs) (fun v =>
  obind (erefcnt E false t v c) (fun c =>
  lift c (doAssign (mm c) (tk t) lhs rhs (tsz t)) (fun m => OOk (with_mm c m))))).
(** src/umka_vm.c:3320-3388, doUnary. Rule: the operand is not a pointer. *)
Definition unary (o : op) (k : kind) (c : core) : ores :=
  match stk c with
  | (v, n) :: r => if strict && isPtr k then OUB else lift c (doUnary o k v) (fun v => OOk (with_stk c ((v, match n with Some _ => Some k | None => None end) :: r)))
  | [] => OUB
  end.
(** src/umka_vm.c:3391-3608, doBinary on slots (other operand types: not modelled, IOther). *)
Definition binary (o : op) (k : kind) (c : core) : ores :=
  match stk c with
  | (b, n) :: (a, m) :: r =>
      lift c (doBinary (elm E) o k a b) (fun v =>
      OOk (with_stk c ((v, match m, n with Some _, Some _ => Some (if isComparison o then KBool else k) | _, _ => None end) :: r)))
  | _ => OUB
  end.
(** src/umka_vm.c:3892-3940, doCallBuiltin, math builtins. Rule: MAKEREAL is asked for the kind the constant has, or it does not
    matter. *)
Definition kindsFit (n : option kind) (k : kind) (v : Z) : bool :=
  match n with Some pk => Bool.eqb (isUInt pk) (isUInt k) || ((0 <=? v) && in_s64b v) | None => true end.
Definition builtin (f : mathfn) (k : kind) (c : core) : ores :=
  let result (n : option kind) := match n with Some _ => Some (resultKind f) | None => None end in
  match f, stk c with
  | FMakeRealLeft, (t, n) :: (l, m) :: r =>
      if strict && negb (kindsFit m k l) then OUB else
      lift c (doMathBuiltin (elm E) f k [t; l]) (fun x => match x with [t; l] => OOk (with_stk c ((t, n) :: (l, result m) :: r)) | _ => OUB end)
  | FAtan2, (x, n) :: (y, m) :: r =>
      lift c (doMathBuiltin (elm E) f k [x; y]) (fun z => match z with
        [v] => OOk (with_stk c ((v, match m, n with Some _, Some _ => Some KReal | _, _ => None end) :: r)) | _ => OUB end)
  | FMakeRealLeft, _ | FAtan2, _ => OUB
  | _, (v, n) :: r =>
      if strict && match f with FMakeReal => negb (kindsFit n k v) | _ => false end then OUB else
      lift c (doMathBuiltin (elm E) f k [v]) (fun x => match x with [v] => OOk (with_stk c ((v, result n) :: r)) | _ => OUB end)
  | _, [] => OUB
  end.

Definition getReg (s : st) (r : reg) : slot :=
  match r with RResult => rres (co s) | RSelf => self s | RHeapCopy => rheap (co s) | RSwitch => rsw (co s) | RExprList => rlist (co s) end.
Definition setReg (s : st) (r : reg) (v : slot) : st :=
  let c := co s in
  match r with
  | RResult => wc s (mkcore (stk c) (mm c) (hp c) v (rheap c) (rsw c) (rlist c) (base c) (lim c))
  | RSelf => mkst c v true
  | RHeapCopy => wc s (mkcore (stk c) (mm c) (hp c) (rres c) v (rsw c) (rlist c) (base c) (lim c))
  | RSwitch => wc s (mkcore (stk c) (mm c) (hp c) (rres c) (rheap c) v (rlist c) (base c) (lim c))
  | RExprList => wc s (mkcore (stk c) (mm c) (hp c) (rres c) (rheap c) (rsw c) v (base c) (lim c))
  end.

(** src/umka_vm.c:4062-4151, vmLoop: one instruction that goes on to the next. With [strict], an instruction that breaks a rule the
    compiler keeps to has the outcome RUB:
    - PUSH of a pointer constant: the address belongs to global data, or is null;
    - PUSH_REG SELF: the register was written since the last call and not read since;
    - and the rules stated above. *)
Definition step (i : instr) (s : st) : res :=
  let c := co s in
  if lim c <? Z.of_nat (length (stk c)) then RErr EStackOverflow (mm c) (hp c) else
  match i with
  | IPush k v => if strict && isPtr k && negb (estatic E v) then RUB else keep s (OOk (push c (v, Some k)))
  | IPushGlobal k p => keep s (derefTop k (push c (p, None)))
  | IPushZero n =>
      if n <? 0 then RUB
      else if lim c <? Z.of_nat (length (stk c)) + n then RErr EStackOverflow (mm c) (hp c)
      else keep s (OOk (with_stk c (repeat (0, None) (Z.to_nat n) ++ stk c)))
  | IPushLocalPtr o => keep s (pushLocal o c)
  | IPushLocalPtrZero o n => keep s (obind (pushLocal o c) (fun c => match stk c with (p, _) :: _ => zeroAt p n c | [] => OUB end))
  | IPushLocal k o => keep s (obind (pushLocal o c) (derefTop k))
  | IPushReg RSelf => if strict && negb (fresh s) then RUB else ROk (mkst (push c (self s)) (self s) false)
  | IPushReg r => keep s (OOk (push c (getReg s r)))
  | IPop n =>
      if (n <? 0) || (Z.of_nat (length (stk c)) <? n) then RUB else keep s (OOk (with_stk c (skipn (Z.to_nat n) (stk c))))
  | IPopReg r => match stk c with v :: l => ROk (setReg (wc s (with_stk c l)) r v) | [] => RUB end
  | IDup => match stk c with v :: l => keep s (OOk (with_stk c (v :: v :: l))) | [] => RUB end
  | ISwap => match stk c with a :: b :: l => keep s (OOk (with_stk c (b :: a :: l))) | _ => RUB end
  | IZero n => match stk c with (p, _) :: l => keep s (zeroAt p n (with_stk c l)) | [] => RUB end
  | IDeref k => keep s (derefTop k c)
  | IAssign k n => match stk c with (rhs, _) :: (lhs, _) :: l => keep s (assign k n lhs rhs l c) | _ => RUB end
  | ISwapAssign k n => match stk c with (lhs, _) :: (rhs, _) :: l => keep s (assign k n lhs rhs l c) | _ => RUB end
  | IRefCnt inc t => match stk c with (p, _) :: _ => lose s (refCnt inc t p c) | [] => RUB end
  | IRefCntAssign swap lft t =>
      match stk c with
      | (a, _) :: (b, _) :: l => lose s (refCntAssign lft t (if swap then a else b) (if swap then b else a) (with_stk c l))
      | _ => RUB
      end
  | IUnary o k => if isIncDec o then keep s (eincdec E o k c) else keep s (unary o k c)
  | IBinary o k => keep s (binary o k c)
  | IGetArrayPtr size len => keep s (getArray size len c)
  | IGetArray k size len => keep s (obind (getArray size len c) (derefTop k))
  | IGetDynArrayPtr => keep s (esel E None c)
  | IGetDynArray k => keep s (obind (esel E None c) (derefTop k))
  | IGetMapPtr t => keep s (esel E (Some t) c)
  | IGetMap k t => keep s (obind (esel E (Some t) c) (derefTop k))
  | IGetFieldPtr o => keep s (getField o c)
  | IGetField k o => keep s (obind (getField o c) (derefTop k))
  | IBuiltin f k => keep s (builtin f k c)
  | IOther n => lose s (eopq E n c)
  | INop | IJump _ _ | IHalt => RErr EIllegalOp (mm c) (hp c)
  end.

(** Straight-line code. *)
Fixpoint exec (l : list instr) (s : st) : res :=
  match l with [] => ROk s | i :: r => match step i s with ROk s => exec r s | x => x end end.

(** The loop. [n] bounds the number of instructions executed. *)
Inductive rres_ : Type := Fin (r : res) | OutOfFuel.
Fixpoint run (n : nat) (p : list instr) (pc : nat) (s : st) : rres_ :=
  match n with
  | O => OutOfFuel
  | S n =>
      match nth_error p pc with
      | None => Fin RUB
      | Some i =>
          let c := co s in
          match i with
          | IHalt => if lim c <? Z.of_nat (length (stk c)) then Fin (RErr EStackOverflow (mm c) (hp c)) else Fin (ROk s)
          | IJump j d =>
              if lim c <? Z.of_nat (length (stk c)) then Fin (RErr EStackOverflow (mm c) (hp c)) else
              match j, stk c with
              | JGoto, _ => run n p d s
              | JIf, (v, _) :: l => run n p (if v =? 0 then S pc else d) (wc s (with_stk c l))
              | JIfNot, (v, _) :: l => run n p (if v =? 0 then d else S pc) (wc s (with_stk c l))
              | _, [] => Fin RUB
              end
          | i => match step i s with ROk s => run n p (S pc) s | r => Fin r end
          end
      end
  end.

End Vm.
Arguments stk {H}. Arguments mm {H}. Arguments hp {H}. Arguments base {H}. Arguments lim {H}. Arguments rsw {H}.
Arguments co {H}. Arguments self {H}. Arguments fresh {H}. Arguments mkst {H}. Arguments mkcore {H}.
Arguments ROk {H}. Arguments RErr {H}. Arguments RUB {H}. Arguments OOk {H}. Arguments OErr {H}. Arguments OUB {H}.
Arguments Fin {H}. Arguments OutOfFuel {H}. Arguments with_stk {H}. Arguments with_mm {H}. Arguments push {H}. Arguments wc {H}.
Arguments ferr {H}. Arguments lift {H A}. Arguments obind {H}. Arguments keep {H}. Arguments inframe {H}.
Arguments derefTop {H}. Arguments assign {H}. Arguments getReg {H}. Arguments setReg {H}.
Arguments erefcnt {H}. Arguments esel {H}. Arguments eincdec {H}. Arguments estr {H}. Arguments eopq {H}. Arguments eself {H}.
Arguments estatic {H}. Arguments evsize {H}. Arguments elm {H}.
Arguments lose {H}. Arguments addp {H}. Arguments pushLocal {H}. Arguments zeroAt {H}. Arguments getArray {H}. Arguments getField {H}.
Arguments refCnt {H}. Arguments refCntAssign {H}. Arguments unary {H}. Arguments binary {H}. Arguments builtin {H}.
Arguments step {H}. Arguments exec {H}. Arguments run {H}.

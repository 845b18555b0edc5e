(** What it means for optimised code to do the same as the code asked for. *)
From Coq Require Import ZArith Bool List.
From Verif Require Import Base NumModel MemModel BlkModel GenModel GenVm.
Import ListNotations.
Local Open Scope Z_scope.

(** The instruction a request asks for. *)
Definition instr_of (q : req) : instr :=
  match q with
  | QNop => INop
  | QPushConst k v => IPush k v
  | QPushGlobal k p => IPushGlobal k p
  | QPushLocalPtr o => IPushLocalPtr o
  | QPushLocal k o => IPushLocal k o
  | QPushReg r => IPushReg r
  | QPushZero n => IPushZero n
  | QPop => IPop 1
  | QPopReg r => IPopReg r
  | QDup => IDup
  | QSwap => ISwap
  | QZero n => IZero n
  | QDeref k => IDeref k
  | QAssign k n => IAssign k n
  | QSwapAssign k n => ISwapAssign k n
  | QRefCnt inc t => IRefCnt inc t
  | QRefCntAssign swap lft t => IRefCntAssign swap lft t
  | QUnary o k => IUnary o k
  | QBinary o k => IBinary o k
  | QGetArrayPtr size len => IGetArrayPtr size len
  | QGetDynArrayPtr => IGetDynArrayPtr
  | QGetMapPtr t => IGetMapPtr t
  | QGetFieldPtr o => IGetFieldPtr o
  | QBuiltin f k => IBuiltin f k
  | QOther n => IOther n
  | QHalt => IHalt
  end.
(** A generator that never optimises. *)
Definition emitPlain (g : gst) (q : req) : outcome gst := Ok (genAddInstr g (instr_of q)).

(** How calls of the generator must be nested: what each saved position stands for. *)
Inductive mark : Type := Stub | Head | Stub2 | ForStub.
Fixpoint popStubs (n : nat) (l : list mark) : option (list mark) :=
  match n, l with O, _ => Some l | S n, Stub :: l => popStubs n l | S _, _ => None end.
Definition nest1 (l : list mark) (a : act) : option (list mark) :=
  match a, l with
  | AIfCondEpilog, _ | ACaseConstantCheck _ _, _ | AWhileCondEpilog, _ | AShortCircuitProlog, _ => Some (Stub :: l)
  | AIfEpilog, Stub :: l | AIfElseEpilog, Stub :: l | AShortCircuitEpilog _, Stub :: l => Some l
  | AElseProlog, Stub :: l | ACaseBlockEpilog, Stub :: l => Some (Stub :: l)
  | ACaseBlockProlog n, _ => match popStubs n l with Some l => Some (Stub :: l) | None => None end
  | ASwitchEpilog n, _ => popStubs n l
  | AWhileCondProlog, _ | AForCondProlog, _ => Some (Head :: l)
  | AWhileEpilog, Stub :: Head :: l => Some l
  | AForCondEpilog, Head :: l => Some (Stub2 :: Head :: l)
  | AForPostStmtEpilog, Stub2 :: Head :: l => Some (ForStub :: l)
  | AForEpilog, ForStub :: l => Some l
  | AReq _, _ | ASwitchCondEpilog, _ | AGotosProlog _, _ | AGotosAddStub _, _ | AGotosEpilog _, _ => Some l
  | _, _ => None
  end.
Fixpoint nested (l : list mark) (p : list act) : option (list mark) :=
  match p with [] => Some l | a :: p => match nest1 l a with Some l => nested l p | None => None end end.

Section Spec.
Variable H : Type.

(** The same state, except that REG_SELF only matters until it is read. *)
Definition same (s1 s2 : st H) : Prop := co s1 = co s2 /\ (fresh s1 = true -> fresh s2 = true /\ self s1 = self s2).
(** The optimised code gives the same result unless the code asked for breaks a rule or has no stack left. *)
Definition bad (r : res H) : Prop := match r with RUB | RErr EStackOverflow _ _ => True | _ => False end.
Definition same_res (r1 r2 : res H) : Prop :=
  match r1, r2 with
  | ROk s1, ROk s2 => same s1 s2
  | RErr e1 m1 h1, RErr e2 m2 h2 => e1 = e2 /\ m1 = m2 /\ h1 = h2
  | _, _ => False
  end.

(** What the optimiser relies on about reference counting: nothing is counted for types without references, for a pointer to global
    data, and for a variable that is all zeros. *)
Definition refcnt_ok (E : env H) : Prop :=
  (forall inc t p c, tgc t = false -> erefcnt E inc t p c = OOk c) /\
  (forall inc t p c, tk t = KPtr \/ tk t = KStr -> estatic E p = true -> erefcnt E inc t p c = OOk c) /\
  (forall inc t p c, kindStructured (tk t) = true -> (forall x, p <= x < p + tsz t -> mm c x = 0) -> erefcnt E inc t p c = OOk c).
End Spec.
Arguments same {H}. Arguments bad {H}. Arguments same_res {H}. Arguments refcnt_ok {H}.

(** Code generator with its peephole optimiser and jump fixups, src/umka_gen.c, and the instructions it deals with, src/umka_vm.c. *)
From Coq Require Import ZArith Bool List.
From Verif Require Import Base NumModel MemModel BlkModel.
Import ListNotations.
Local Open Scope Z_scope.

(** What the generator reads from a Type (src/umka_types.h:150-175): kind, size, isGarbageCollected; [tid] tells types apart. *)
Record ty : Type := mkty { tk : kind; tsz : Z; tgc : bool; tid : nat }.
(** src/umka_types.h:300-304, typeStructured. *)
Definition kindStructured (k : kind) : bool :=
  match k with KArray | KDynArray | KMap | KStruct | KInterface | KClosure => true | _ => false end.
Definition isPtr (k : kind) : bool := match k with KPtr => true | _ => false end.
Definition isStr (k : kind) : bool := match k with KStr => true | _ => false end.
Definition isInt (k : kind) : bool := match k with KInt => true | _ => false end.
Definition isUInt (k : kind) : bool := match k with KUInt => true | _ => false end.

(** src/umka_vm.h:10-19, enum RegisterIndex. *)
Inductive reg : Type := RResult | RSelf | RHeapCopy | RSwitch | RExprList.
Definition reg_eqb (a b : reg) : bool :=
  match a, b with
  | RResult, RResult | RSelf, RSelf | RHeapCopy, RHeapCopy | RSwitch, RSwitch | RExprList, RExprList => true
  | _, _ => false
  end.

Inductive jump : Type := JGoto | JIf | JIfNot.

(** src/umka_vm.h:51-102, enum Opcode with the operands of struct Instruction (117-124) that each opcode uses. IOther stands for
    every instruction the optimiser neither removes nor changes nor looks for and that goes on to the next one: PUSH_UPVALUE,
    ASSIGN_PARAM, REF_CNT_GLOBAL, REF_CNT_LOCAL, ASSERT_*, WEAKEN_PTR, STRENGTHEN_PTR, CALL*, ENTER_FRAME, LEAVE_FRAME and
    builtins other than the math ones; its operand tells them apart. IHalt stands for HALT and RETURN. *)
Inductive instr : Type :=
| INop
| IPush (k : kind) (v : Z)
| IPushGlobal (k : kind) (p : Z)
| IPushZero (n : Z)
| IPushLocalPtr (o : Z)
| IPushLocalPtrZero (o n : Z)
| IPushLocal (k : kind) (o : Z)
| IPushReg (r : reg)
| IPop (n : Z)
| IPopReg (r : reg)
| IDup
| ISwap
| IZero (n : Z)
| IDeref (k : kind)
| IAssign (k : kind) (n : Z)
| ISwapAssign (k : kind) (n : Z)
| IRefCnt (inc : bool) (t : ty)
| IRefCntAssign (swap lft : bool) (t : ty)
| IUnary (o : op) (k : kind)
| IBinary (o : op) (k : kind)
| IGetArrayPtr (size len : Z)
| IGetArray (k : kind) (size len : Z)
| IGetDynArrayPtr
| IGetDynArray (k : kind)
| IGetMapPtr (t : ty)
| IGetMap (k : kind) (t : ty)
| IGetFieldPtr (o : Z)
| IGetField (k : kind) (o : Z)
| IBuiltin (f : mathfn) (k : kind)
| IJump (j : jump) (dest : nat)
| IOther (n : nat)
| IHalt.

(** src/umka_gen.h:31-43, struct CodeGen: the instructions before ip, last one first; lastJump; the stack of saved positions; the
    lists of stubs that breaks, continues and returns point to, innermost first. lastNotification only matters to
    genTryRemoveCopyResultToTempVar, which is not modelled. The code array grows as needed. *)
Record gst : Type := mkgst { rc : list instr; lastJump : nat; gstack : list nat; brk : list (list nat); cnt : list (list nat); ret : list (list nat) }.
Definition ip (g : gst) : nat := length (rc g).
Definition with_rc (g : gst) (l : list instr) : gst := mkgst l (lastJump g) (gstack g) (brk g) (cnt g) (ret g).
(** src/umka_gen.c:38-51, genInit. *)
Definition genInit : gst := mkgst [] 0 [] [] [] [].
(** src/umka_gen.c:31-35, genUpdateLastJump. *)
Definition genUpdateLastJump (g : gst) (p : nat) : gst :=
  if (lastJump g <? p)%nat then mkgst (rc g) p (gstack g) (brk g) (cnt g) (ret g) else g.
(** src/umka_gen.c:68-85, genAddInstr and genRemoveInstr. *)
Definition genAddInstr (g : gst) (i : instr) : gst := with_rc g (i :: rc g).
Definition genRemoveInstr (g : gst) : gst := with_rc g (tl (rc g)).
(** Instructions changed in place: the last one, or (after it is removed) the one before. *)
Definition genSetLast (g : gst) (i : instr) : gst := with_rc g (i :: tl (rc g)).
Definition genSetPrev (g : gst) (i : instr) : gst :=
  match rc g with a :: _ :: r => with_rc g (a :: i :: r) | _ => g end.
(** src/umka_gen.c:90-97, getPrevInstr; depth is 1 or more. *)
Definition getPrevInstr (g : gst) (depth : nat) : option instr :=
  if (ip g <? lastJump g + depth)%nat then None else nth_error (rc g) (depth - 1).

(** src/umka_gen.c:100-122, optimizePushLocalPtr, and 551-558, genPushLocalPtr. Offsets are int, the operands int64_t. *)
Definition genPushLocalPtr (g : gst) (offset : Z) : gst :=
  match getPrevInstr g 1, getPrevInstr g 2 with
  | Some (IZero size), Some (IPushLocalPtr o) =>
      if offset =? o then genAddInstr (genRemoveInstr (genRemoveInstr g)) (IPushLocalPtrZero offset (s32 size))
      else genAddInstr g (IPushLocalPtr offset)
  | _, _ => genAddInstr g (IPushLocalPtr offset)
  end.
(** src/umka_gen.c:125-138, optimizePushReg, and 575-582, genPushReg. *)
Definition genPushReg (g : gst) (r : reg) : gst :=
  match getPrevInstr g 1 with
  | Some (IPopReg RSelf) => if reg_eqb r RSelf then genRemoveInstr g else genAddInstr g (IPushReg r)
  | _ => genAddInstr g (IPushReg r)
  end.
(** src/umka_gen.c:141-154, optimizePushZero, and 592-599, genPushZero. *)
Definition genPushZero (g : gst) (slots : Z) : gst :=
  match getPrevInstr g 1 with
  | Some (IPushZero n) => genSetLast g (IPushZero (n + slots))
  | _ => genAddInstr g (IPushZero slots)
  end.
(** src/umka_gen.c:157-170, optimizePop, and 602-609, genPop. *)
Definition genPop (g : gst) : gst :=
  match getPrevInstr g 1 with
  | Some (IPop n) => genSetLast g (IPop (n + 1))
  | _ => genAddInstr g (IPop 1)
  end.
(** src/umka_gen.c:173-185, optimizePopReg, and 612-619, genPopReg. *)
Definition genPopReg (g : gst) (r : reg) : gst :=
  match getPrevInstr g 1 with
  | Some (IPushReg n) => if reg_eqb n r then genRemoveInstr g else genAddInstr g (IPopReg r)
  | _ => genAddInstr g (IPopReg r)
  end.
(** src/umka_gen.c:188-202, optimizeSwapAssign, and 660-667, genSwapAssign. *)
Definition genSwapAssign (g : gst) (k : kind) (size : Z) : gst :=
  match getPrevInstr g 1 with
  | Some ISwap => genAddInstr (genRemoveInstr g) (IAssign k size)
  | _ => genAddInstr g (ISwapAssign k size)
  end.
(** src/umka_gen.c:205-224, optimizeRefCnt. *)
Definition optimizeRefCnt (g : gst) (t : ty) : bool :=
  match getPrevInstr g 1 with
  | Some (IPush k _) => isPtr k && (isPtr (tk t) || isStr (tk t))
  | Some (IPushLocalPtrZero _ _) => kindStructured (tk t)
  | _ => false
  end.
(** src/umka_gen.c:677-684, genRefCnt. *)
Definition genRefCnt (g : gst) (inc : bool) (t : ty) : gst :=
  if tgc t && negb (optimizeRefCnt g t) then genAddInstr g (IRefCnt inc t) else g.
(** src/umka_gen.c:227-292, optimizeDeref, and 643-650, genDeref. The recursive call of genDeref after GET_FIELD_PTR 0 was removed
    is the recursion here, on the instructions left; [fuel] is larger than their number. Only these emitters call genDeref. *)
Fixpoint genDerefF (fuel : nat) (g : gst) (k : kind) : gst :=
  match fuel with
  | O => g
  | S fuel =>
      match getPrevInstr g 1 with
      | Some (IPush pk p) => if isPtr pk then genAddInstr (genRemoveInstr g) (IPushGlobal k p) else genAddInstr g (IDeref k)
      | Some (IPushLocalPtr o) => genAddInstr (genRemoveInstr g) (IPushLocal k (s32 o))
      | Some (IGetArrayPtr size len) => genSetLast g (IGetArray k size len)
      | Some IGetDynArrayPtr => genSetLast g (IGetDynArray k)
      | Some (IGetMapPtr t) => genSetLast g (IGetMap k t)
      | Some (IGetFieldPtr o) => if o =? 0 then genDerefF fuel (genRemoveInstr g) k else genSetLast g (IGetField k o)
      | _ => genAddInstr g (IDeref k)
      end
  end.
Definition genDeref (g : gst) (k : kind) : gst := genDerefF (S (ip g)) g k.
(** src/umka_gen.c:316-337, optimizeGetFieldPtr, and 787-794, genGetFieldPtr. *)
Definition genGetFieldPtr (g : gst) (o : Z) : gst :=
  match getPrevInstr g 1 with
  | Some (IPushLocalPtr p) => genSetLast g (IPushLocalPtr (p + o))
  | Some (IGetFieldPtr p) => genSetLast g (IGetFieldPtr (p + o))
  | _ => genAddInstr g (IGetFieldPtr o)
  end.
(** src/umka_gen.c:295-313, optimizeGetArrayPtr, and 763-770, genGetArrayPtr. itemSize * index is an int product. *)
Definition genGetArrayPtr (g : gst) (size len : Z) : outcome gst :=
  match getPrevInstr g 1 with
  | Some (IPush k v) =>
      if isInt k && (0 <=? len) then
        let index := s32 v in
        if (index <? 0) || (len - 1 <? index) then Err EIndex
        else if (INT_MIN <=? size * index) && (size * index <=? INT_MAX) then Ok (genGetFieldPtr (genRemoveInstr g) (size * index)) else UB
      else Ok (genAddInstr g (IGetArrayPtr size len))
  | _ => Ok (genAddInstr g (IGetArrayPtr size len))
  end.
(** src/umka_gen.c:340-368, optimizeUnary, and 743-750, genUnary. *)
Definition isIncDec (o : op) : bool := match o with OpPlusPlus | OpMinusMinus => true | _ => false end.
Definition genUnary (g : gst) (o : op) (k : kind) : outcome gst :=
  match getPrevInstr g 1 with
  | Some (IPush _ v) =>
      if isIncDec o then Ok (genAddInstr g (IUnary o k))
      else let* r := constUnary o k v in Ok (genSetLast g (IPush k r))
  | _ => Ok (genAddInstr g (IUnary o k))
  end.
Definition isComparison (o : op) : bool :=
  match o with OpEqEq | OpNotEq | OpGreater | OpLess | OpGreaterEq | OpLessEq => true | _ => false end.

Section Gen.
Variable lm : libm.

(** src/umka_gen.c:371-417, optimizeBinary, and 753-760, genBinary. *)
Definition genBinary (g : gst) (o : op) (k : kind) : outcome gst :=
  match getPrevInstr g 1, getPrevInstr g 2 with
  | Some (IPush _ b), Some (IPush _ a) =>
      if kindOrdinal k || kindReal k then
        let* r := constBinary lm o k a b in
        Ok (genSetLast (genRemoveInstr g) (IPush (if isComparison o then KBool else k) r))
      else Ok (genAddInstr g (IBinary o k))
  | _, _ => Ok (genAddInstr g (IBinary o k))
  end.
(** src/umka_gen.c:420-504, optimizeCallBuiltin, for the math builtins (others are not optimised), and 876-883, genCallBuiltin. *)
Definition resultKind (f : mathfn) : kind := match f with FAbs | FRound | FTrunc | FCeil | FFloor => KInt | _ => KReal end.
Definition genCallBuiltin (g : gst) (f : mathfn) (k : kind) : outcome gst :=
  match getPrevInstr g 1 with
  | Some (IPush pk v) =>
      match f with
      | FMakeRealLeft =>
          match getPrevInstr g 2 with
          | Some (IPush pk2 v2) => let* r := constCallBuiltin lm f pk2 v2 0 in Ok (genSetPrev g (IPush KReal r))
          | _ => Ok (genAddInstr g (IBuiltin f k))
          end
      | FAtan2 =>
          match getPrevInstr g 2 with
          | Some (IPush pk2 v2) => let* r := constCallBuiltin lm f pk2 v2 v in Ok (genSetLast (genRemoveInstr g) (IPush KReal r))
          | _ => Ok (genAddInstr g (IBuiltin f k))
          end
      | _ => let* r := constCallBuiltin lm f pk v 0 in Ok (genSetLast g (IPush (resultKind f) r))
      end
  | _ => Ok (genAddInstr g (IBuiltin f k))
  end.

(** The emitters as the parser calls them. QPushConst is genPushIntConst, genPushUIntConst, genPushRealConst (516-534) and
    genPushGlobalPtr (537-541), QRefCntAssign is genRefCntAssign, genSwapRefCntAssign and genLeftRefCntAssign (707-740). *)
Inductive req : Type :=
| QNop
| QPushConst (k : kind) (v : Z)
| QPushGlobal (k : kind) (p : Z)
| QPushLocalPtr (o : Z)
| QPushLocal (k : kind) (o : Z)
| QPushReg (r : reg)
| QPushZero (n : Z)
| QPop
| QPopReg (r : reg)
| QDup
| QSwap
| QZero (n : Z)
| QDeref (k : kind)
| QAssign (k : kind) (n : Z)
| QSwapAssign (k : kind) (n : Z)
| QRefCnt (inc : bool) (t : ty)
| QRefCntAssign (swap lft : bool) (t : ty)
| QUnary (o : op) (k : kind)
| QBinary (o : op) (k : kind)
| QGetArrayPtr (size len : Z)
| QGetDynArrayPtr
| QGetMapPtr (t : ty)
| QGetFieldPtr (o : Z)
| QBuiltin (f : mathfn) (k : kind)
| QOther (n : nat)
| QHalt.
(** src/umka_gen.c:509-921. *)
Definition genReq (g : gst) (q : req) : outcome gst :=
  match q with
  | QNop => Ok (genAddInstr g INop)
  | QPushConst k v => Ok (genAddInstr g (IPush k v))
  | QPushGlobal k p => Ok (genAddInstr g (IPushGlobal k p))
  | QPushLocalPtr o => Ok (genPushLocalPtr g o)
  | QPushLocal k o => Ok (genAddInstr g (IPushLocal k o))
  | QPushReg r => Ok (genPushReg g r)
  | QPushZero n => Ok (genPushZero g n)
  | QPop => Ok (genPop g)
  | QPopReg r => Ok (genPopReg g r)
  | QDup => Ok (genAddInstr g IDup)
  | QSwap => Ok (genAddInstr g ISwap)
  | QZero n => Ok (genAddInstr g (IZero n))
  | QDeref k => Ok (genDeref g k)
  | QAssign k n => Ok (genAddInstr g (IAssign k n))
  | QSwapAssign k n => Ok (genSwapAssign g k n)
  | QRefCnt inc t => Ok (genRefCnt g inc t)
  | QRefCntAssign swap lft t =>
      Ok (if tgc t then genAddInstr g (IRefCntAssign swap lft t)
          else if swap then genSwapAssign g (tk t) (tsz t) else genAddInstr g (IAssign (tk t) (tsz t)))
  | QUnary o k => genUnary g o k
  | QBinary o k => genBinary g o k
  | QGetArrayPtr size len => genGetArrayPtr g size len
  | QGetDynArrayPtr => Ok (genAddInstr g IGetDynArrayPtr)
  | QGetMapPtr t => Ok (genAddInstr g (IGetMapPtr t))
  | QGetFieldPtr o => Ok (genGetFieldPtr g o)
  | QBuiltin f k => genCallBuiltin g f k
  | QOther n => Ok (genAddInstr g (IOther n))
  | QHalt => Ok (genAddInstr g IHalt)
  end.

End Gen.

(** ** Jumps and fixups. [emit] is [genReq lm]; the specification also runs these with an emitter that never optimises. *)
Section Jumps.
Variable emit : gst -> req -> outcome gst.

(** src/umka_gen.c:825-852, genGoto, genGotoIf, genGotoIfNot. *)
Definition genGoto (g : gst) (j : jump) (dest : nat) : gst :=
  genAddInstr (genUpdateLastJump (genUpdateLastJump g (ip g)) dest) (IJump j dest).
(** src/umka_gen.c:926-936, genSavePos and genRestorePos. The array has MAX_BLOCK_NESTING = 100 entries (src/umka_common.h:20) and
    no check. *)
Definition MAX_BLOCK_NESTING : nat := 100.
Definition genSavePos (g : gst) : outcome gst :=
  if (MAX_BLOCK_NESTING <=? length (gstack g))%nat then UB
  else let g := genUpdateLastJump g (ip g) in Ok (mkgst (rc g) (lastJump g) (ip g :: gstack g) (brk g) (cnt g) (ret g)).
Definition genRestorePos (g : gst) : outcome (nat * gst) :=
  match gstack g with
  | p :: r => Ok (p, mkgst (rc g) (lastJump g) r (brk g) (cnt g) (ret g))
  | [] => UB
  end.
(** src/umka_gen.c:939-963, genGoFromTo, genGoFromToIf, genGoFromToIfNot: instruction number [start] is overwritten. *)
Fixpoint setnth {A} (l : list A) (n : nat) (x : A) : list A :=
  match l, n with [], _ => [] | _ :: r, O => x :: r | a :: r, S n => a :: setnth r n x end.
Definition genGoFromTo (g : gst) (j : jump) (start dest : nat) : outcome gst :=
  if (start <? ip g)%nat then
    let g := genUpdateLastJump (genUpdateLastJump g start) dest in
    Ok (with_rc g (setnth (rc g) (ip g - 1 - start) (IJump j dest)))
  else UB.
(** genGoFromTo*(gen, genRestorePos(gen), gen->ip + d). *)
Definition genFixup (g : gst) (j : jump) (d : nat) : outcome gst :=
  let* (p, g) := genRestorePos g in genGoFromTo g j p (ip g + d)%nat.
(** A position saved and a stub emitted. *)
Definition genStub (g : gst) : outcome gst := let* g := genSavePos g in emit g QNop.

(** src/umka_gen.c:966-990. *)
Definition genIfCondEpilog (g : gst) : outcome gst := genStub g.
Definition genIfEpilog (g : gst) : outcome gst := genFixup g JIfNot 0.
Definition genElseProlog (g : gst) : outcome gst := let* g := genFixup g JIfNot 1 in genStub g.
Definition genIfElseEpilog (g : gst) : outcome gst := genFixup g JGoto 0.
(** src/umka_gen.c:993-1031. *)
Definition genSwitchCondEpilog (g : gst) : outcome gst := emit g (QPopReg RSwitch).
Definition genCaseConstantCheck (g : gst) (k : kind) (v : Z) : outcome gst :=
  let* g := emit g (QPushReg RSwitch) in
  let* g := emit g (QPushConst KInt v) in
  let* g := emit g (QBinary OpEqEq k) in
  genStub g.
Fixpoint genFixups (n : nat) (g : gst) (j : jump) (d : nat) : outcome gst :=
  match n with O => Ok g | S n => let* g := genFixup g j d in genFixups n g j d end.
Definition genCaseBlockProlog (g : gst) (n : nat) : outcome gst := let* g := genFixups n g JIf 1 in genStub g.
Definition genCaseBlockEpilog (g : gst) : outcome gst := let* g := genFixup g JGoto 1 in genStub g.
Definition genSwitchEpilog (g : gst) (n : nat) : outcome gst := genFixups n g JGoto 0.
(** src/umka_gen.c:1034-1050. *)
Definition genWhileCondProlog (g : gst) : outcome gst := genSavePos g.
Definition genWhileCondEpilog (g : gst) : outcome gst := genIfCondEpilog g.
Definition genWhileEpilog (g : gst) : outcome gst :=
  let* g := genFixup g JIfNot 1 in
  let* (p, g) := genRestorePos g in Ok (genGoto g JGoto p).
(** src/umka_gen.c:1053-1085. *)
Definition genForCondProlog (g : gst) : outcome gst := genSavePos g.
Definition genForCondEpilog (g : gst) : outcome gst := let* g := genStub g in emit g QNop.
Definition genForPostStmtEpilog (g : gst) : outcome gst :=
  let* (condEpilog, g) := genRestorePos g in
  let* (condProlog, g) := genRestorePos g in
  let g := genGoto g JGoto condProlog in
  let* g := genGoFromTo g JIf condEpilog (ip g) in
  if (MAX_BLOCK_NESTING <=? length (gstack g))%nat then UB
  else Ok (mkgst (rc g) (lastJump g) (condEpilog :: gstack g) (brk g) (cnt g) (ret g)).
Definition genForEpilog (g : gst) : outcome gst :=
  let* (condEpilog, g) := genRestorePos g in
  let g := genGoto g JGoto (condEpilog + 2)%nat in
  genGoFromTo g JGoto (condEpilog + 1)%nat (ip g).
(** src/umka_gen.c:1090-1105. *)
Definition genShortCircuitProlog (g : gst) : outcome gst :=
  let* g := emit g QDup in
  let* g := genStub g in
  emit g QPop.
Definition genShortCircuitEpilog (g : gst) (isAnd : bool) : outcome gst := genFixup g (if isAnd then JIfNot else JIf) 0.
(** src/umka_gen.c:1147-1168, and the local Gotos of parseForStmt and parseFnBlock (src/umka_stmt.c:1082-1125, 1334-1362). *)
Inductive goto : Type := GBreak | GContinue | GReturn.
Definition gotos (g : gst) (w : goto) : list (list nat) := match w with GBreak => brk g | GContinue => cnt g | GReturn => ret g end.
Definition set_gotos (g : gst) (w : goto) (l : list (list nat)) : gst :=
  match w with
  | GBreak => mkgst (rc g) (lastJump g) (gstack g) l (cnt g) (ret g)
  | GContinue => mkgst (rc g) (lastJump g) (gstack g) (brk g) l (ret g)
  | GReturn => mkgst (rc g) (lastJump g) (gstack g) (brk g) (cnt g) l
  end.
Definition genGotosProlog (g : gst) (w : goto) : gst := set_gotos g w ([] :: gotos g w).
Definition MAX_GOTOS : nat := 100.
Definition genGotosAddStub (g : gst) (w : goto) : outcome gst :=
  match gotos g w with
  | [] => Err ESyntax
  | l :: r =>
      if (MAX_GOTOS <=? length l)%nat then Err ETooMany
      else emit (set_gotos g w ((ip g :: l) :: r)) QNop
  end.
Fixpoint genGotosFix (l : list nat) (g : gst) : outcome gst :=
  match l with [] => Ok g | p :: r => let* g := genGotosFix r g in genGoFromTo g JGoto p (ip g) end.
Definition genGotosEpilog (g : gst) (w : goto) : outcome gst :=
  match gotos g w with
  | [] => UB
  | l :: r => let* g := genGotosFix l g in Ok (set_gotos g w r)
  end.

(** One call of the code generator. *)
Inductive act : Type :=
| AReq (q : req)
| AIfCondEpilog | AIfEpilog | AElseProlog | AIfElseEpilog
| ASwitchCondEpilog | ACaseConstantCheck (k : kind) (v : Z) | ACaseBlockProlog (n : nat) | ACaseBlockEpilog | ASwitchEpilog (n : nat)
| AWhileCondProlog | AWhileCondEpilog | AWhileEpilog
| AForCondProlog | AForCondEpilog | AForPostStmtEpilog | AForEpilog
| AShortCircuitProlog | AShortCircuitEpilog (isAnd : bool)
| AGotosProlog (w : goto) | AGotosAddStub (w : goto) | AGotosEpilog (w : goto).
Definition genAct (g : gst) (a : act) : outcome gst :=
  match a with
  | AReq q => emit g q
  | AIfCondEpilog => genIfCondEpilog g
  | AIfEpilog => genIfEpilog g
  | AElseProlog => genElseProlog g
  | AIfElseEpilog => genIfElseEpilog g
  | ASwitchCondEpilog => genSwitchCondEpilog g
  | ACaseConstantCheck k v => genCaseConstantCheck g k v
  | ACaseBlockProlog n => genCaseBlockProlog g n
  | ACaseBlockEpilog => genCaseBlockEpilog g
  | ASwitchEpilog n => genSwitchEpilog g n
  | AWhileCondProlog => genWhileCondProlog g
  | AWhileCondEpilog => genWhileCondEpilog g
  | AWhileEpilog => genWhileEpilog g
  | AForCondProlog => genForCondProlog g
  | AForCondEpilog => genForCondEpilog g
  | AForPostStmtEpilog => genForPostStmtEpilog g
  | AForEpilog => genForEpilog g
  | AShortCircuitProlog => genShortCircuitProlog g
  | AShortCircuitEpilog b => genShortCircuitEpilog g b
  | AGotosProlog w => Ok (genGotosProlog g w)
  | AGotosAddStub w => genGotosAddStub g w
  | AGotosEpilog w => genGotosEpilog g w
  end.
Fixpoint genActs (g : gst) (l : list act) : outcome gst :=
  match l with [] => Ok g | a :: r => let* g := genAct g a in genActs g r end.

End Jumps.

Definition code (g : gst) : list instr := rev (rc g).

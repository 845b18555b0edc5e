(** C31: the code generator's optimiser. *)
From Coq Require Import ZArith Bool List Floats.SpecFloat.
From Verif Require Import Base NumModel MemModel BlkModel GenModel GenVm GenSpec GenRun GenStop.
Import ListNotations.
Local Open Scope Z_scope.

(** An environment to try things in: nothing is reference counted; addresses below 100 belong to global data. *)
Definition exlm : libm := Build_libm (fun x _ => x) (fun x => x) (fun x => x) (fun x => x) (fun x => x) (fun x _ => x) (fun x => x) (fun x => x).
Definition exE : env unit :=
  mkenv unit exlm (fun _ _ _ c => OOk c) (fun _ c => OOk c) (fun _ _ c => OOk c) (fun _ _ => (0, 0)) (fun _ c => OOk c) (fun _ s => s) (fun p => p <? 100) (fun _ => 16).
Lemma exE_ok : refcnt_ok exE. Proof. repeat split; reflexivity. Qed.
Definition exs : st unit := mkst (mkcore [] (fun _ => 7) tt (0, None) (0, None) (0, None) (0, None) 1000 100) (3, None) false.
(** i := 0; s := 0; for i < 10 { if i == 5 { i = 6; continue }; s = s + i; i = i + (2 - 1) }. The variables are at offsets -8 and -16. *)
Definition getv o := [AReq (QPushLocalPtr o); AReq (QDeref KInt)].
Definition setv o e := AReq (QPushLocalPtr o) :: e ++ [AReq (QAssign KInt 8)].
Definition cst v := [AReq (QPushConst KInt v)].
Definition exprog : list act :=
  setv (-8) (cst 0) ++ setv (-16) (cst 0) ++
  [AGotosProlog GBreak; AGotosProlog GContinue; AForCondProlog] ++ getv (-8) ++ cst 10 ++ [AReq (QBinary OpLess KInt); AForCondEpilog; AForPostStmtEpilog] ++
  getv (-8) ++ cst 5 ++ [AReq (QBinary OpEqEq KInt); AIfCondEpilog] ++ setv (-8) (cst 6) ++ [AGotosAddStub GContinue; AIfEpilog] ++
  setv (-16) (getv (-16) ++ getv (-8) ++ [AReq (QBinary OpPlus KInt)]) ++
  setv (-8) (getv (-8) ++ cst 2 ++ cst 1 ++ [AReq (QBinary OpMinus KInt); AReq (QBinary OpPlus KInt)]) ++
  [AGotosEpilog GContinue; AForEpilog; AGotosEpilog GBreak; AReq QHalt].
Definition lenCode (x : outcome gst) : nat := match x with Ok g => length (code g) | _ => 0%nat end.
Definition final (E : env unit) (strict : bool) (n : nat) (x : outcome gst) (s : st unit) (o : Z) : option Z :=
  match x with Ok g => match run E strict n (code g) 0 s with Fin (ROk s) => Some (load 8 (mm (co s)) (base (co s) + o)) | _ => None end | _ => None end.

(** For every sequence of calls of the code generator that is properly nested, from every state of the machine: if the code as asked for,
    without any optimisation, finishes without running out of stack and without breaking the rules of the compiler (see GenVm.step), then
    so does the real code, with the same operand stack, memory, registers and heap, or with the same error, memory and heap; and the
    other way round, if the real code finishes, so does the code asked for, with the same result or for one of the two reasons above. *)
Theorem C31_same_effect_partial :
  forall H (E : env H) l ms go, refcnt_ok E -> nested [] l = Some ms -> genActs (genReq (elm E)) genInit l = Ok go ->
  exists gp, genActs emitPlain genInit l = Ok gp /\
  forall s,
    (forall n r, run E true n (code gp) 0 s = Fin r -> ~ bad r ->
       run E false n (code gp) 0 s = Fin r /\ exists n' r', run E false n' (code go) 0 s = Fin r' /\ same_res r r') /\
    (forall n' r', run E false n' (code go) 0 s = Fin r' ->
       exists n r, run E true n (code gp) 0 s = Fin r /\ (bad r \/ same_res r r')).
Proof. intros H E l ms go EOK. exact (whole_thm H E EOK l ms go). Qed.
Print Assumptions C31_same_effect_partial.
(** The loop above: 39 instructions asked for, 32 generated; both give 0+1+2+3+4+6+7+8+9 = 40. *)
Example C31_same_effect_case :
  refcnt_ok exE /\ nested [] exprog = Some [] /\
  lenCode (genActs emitPlain genInit exprog) = 39%nat /\ lenCode (genActs (genReq (elm exE)) genInit exprog) = 32%nat /\
  final exE true 1000 (genActs emitPlain genInit exprog) exs (-16) = Some 40 /\ final exE false 1000 (genActs (genReq (elm exE)) genInit exprog) exs (-16) = Some 40.
Proof. split; [exact exE_ok|]. repeat split; vm_compute; reflexivity. Qed.

(** Straight-line code: every sequence of requests. *)
Theorem C31_straight_partial :
  forall H (E : env H) l g s r, refcnt_ok E -> genActs (genReq (elm E)) genInit (map AReq l) = Ok g -> exec E true (map instr_of l) s = r -> ~ bad r ->
  exec E false (map instr_of l) s = r /\ same_res r (exec E false (code g) s).
Proof. intros H E l g s r EOK. exact (straight_thm H E EOK l g s r). Qed.
Print Assumptions C31_straight_partial.
Definition exline : list req :=
  [QPushLocalPtr (-16); QZero 16; QPushLocalPtr (-16); QRefCnt true (mkty KStruct 16 true 0); QPushConst KInt 1; QGetArrayPtr 8 2; QGetFieldPtr 0; QPushConst KInt 5; QPushConst KInt 6;
   QBinary OpMul KInt; QUnary OpMinus KInt; QSwap; QSwapAssign KInt 8; QPushConst KInt 1; QPopReg RSelf; QPushReg RSelf; QPop; QPushZero 1; QPushZero 2; QPop; QPop].
Definition res_ok (r : res unit) : option (list Z * Z) := match r with ROk s => Some (map fst (stk (co s)), s64 (load 8 (mm (co s)) 992)) | _ => None end.
Definition excode : list instr :=
  [IPushLocalPtrZero (-16) 16; IGetFieldPtr 8; IPush KInt (-30); IAssign KInt 8; IPush KInt 1; IPop 1; IPushZero 3; IPop 2].
Example C31_straight_case :
  fmap code (genActs (genReq (elm exE)) genInit (map AReq exline)) = Ok excode /\ res_ok (exec exE false excode exs) = Some ([0], -30) /\ res_ok (exec exE true (map instr_of exline) exs) = Some ([0], -30).
Proof. split; [|split]; vm_compute; reflexivity. Qed.

(** If the generator stops with an error in straight-line code without atan2, then that code cannot be executed to its end. (With atan2: C04.) *)
Theorem C31_stops_partial :
  forall H (E : env H) l e s, refcnt_ok E -> genActs (genReq (elm E)) genInit (map AReq l) = Err e -> (forall k, ~ In (QBuiltin FAtan2 k) l) ->
  match exec E true (map instr_of l) s with ROk _ => False | _ => True end.
Proof. intros H E l e s EOK. exact (stops_thm H E EOK l e s). Qed.
Print Assumptions C31_stops_partial.
Example C31_stops_case :
  genActs (genReq (elm exE)) genInit (map AReq [QPushConst KInt 1; QPushConst KInt 0; QBinary OpDiv KInt; QPop]) = Err EDivZero /\
  genActs (genReq (elm exE)) genInit (map AReq [QPushLocalPtr (-8); QPushConst KInt 3; QGetArrayPtr 8 3; QDeref KInt]) = Err EIndex.
Proof. split; vm_compute; reflexivity. Qed.

(** Without the rules the claim is false: a constant index is cut to 32 bits, so a[4294967296] reads a[0]; and REG_SELF is not written
    when it was read back at once. *)
Inductive seen : Type := Stack (l : list Z) | Error (e : err) | Undefined.
Definition see (x : outcome gst) (s : st unit) : seen :=
  match x with Ok g => match exec exE false (code g) s with ROk s => Stack (map fst (stk (co s))) | RErr e _ _ => Error e | RUB => Undefined end | _ => Undefined end.
Theorem C31_refuted :
  (let l := map AReq [QPushLocalPtr (-8); QPushConst KInt 4294967296; QGetArrayPtr 8 1; QDeref KInt] in
   see (genActs emitPlain genInit l) exs = Error EIndex /\ see (genActs (genReq exlm) genInit l) exs = Stack [506381209866536711]) /\
  (let l := map AReq [QPushConst KInt 5; QPopReg RSelf; QPushReg RSelf; QPushReg RSelf] in
   see (genActs emitPlain genInit l) exs = Stack [5; 5] /\ see (genActs (genReq exlm) genInit l) exs = Stack [3; 5]).
Proof. split; split; vm_compute; reflexivity. Qed.
Print Assumptions C31_refuted.

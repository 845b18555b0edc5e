(** C77: calls of built-in functions. *)
From Coq Require Import ZArith Bool List.
From Verif Require Import BuiltinModel BuiltinSpec BuiltinProofs BuiltinMore.
Import ListNotations.
Local Open Scope Z_scope.

(** Type checks for the examples: types convert to themselves and int to real. *)
Definition exConv (d s : ty) : bool :=
  match d, s with _, TVoid => false | TReal, TInt => true | _, _ => tyEq d s end.
Definition exCompat (d s : ty) : bool := match s with TVoid => false | _ => tyEq d s end.
Definition exIo (b : builtin) (i : nat) (t : ty) : bool := match t with TVoid => false | _ => true end.
Definition exEnd (b : builtin) (n : nat) : bool := Nat.eqb n 1.
Definition exSize (t : ty) : option Z := Some (match t with TVoid => 0 | _ => 8 end).
Definition exLess (t : ty) : bool := match t with TInt | TReal | TStr => true | _ => false end.
Definition exParse := parseCall exConv exCompat exIo exEnd exSize exLess (TFn 1) (fun _ => TFn 2).
Definition exMeans := means exConv exCompat exIo exEnd exSize exLess (TFn 1) (fun _ => TFn 2).
Example C77_example_void : (forall d, exConv d TVoid = false) /\ (forall d, d <> TVoid -> exCompat d TVoid = false) /\
  (forall b i, exIo b i TVoid = false).
Proof. repeat split; intros; auto. destruct d; auto. Qed.
Definition exArr : arg := MkArg 1 (TDyn TReal) false.
Definition exInt : arg := MkArg 2 TInt true.
Definition exStr : arg := MkArg 3 TStr true.
Example C77_example_append :
  exParse false 5 BAppend [XExpr exArr; XExpr exInt] =
    Some ([IEval exArr; IEval exInt; IConv TReal; IPushTemp 5; ISwapAssign; IPushTemp 5; IPush (VInt 1); IPushTemp 6; ICall BAppend (TDyn TReal)],
          TDyn TReal, None) /\
  exMeans BAppend [XExpr exArr; XExpr exInt] (TDyn TReal) ([], RVal (VRes BAppend [VExpr 1; VInt 1; VConv TReal (VExpr 2)])) /\
  exParse false 5 BAppend [XExpr exArr; XExpr exStr] = None /\ exParse false 5 BAppend [XExpr exInt; XExpr exInt] = None.
Proof. repeat split; try reflexivity. eapply s_append_item; try reflexivity; try discriminate. Qed.
Example C77_example_print :
  exMeans BPrintf [XExpr exStr; XExpr exInt] TInt (io_meaning BPrintf VNull (VExpr 3) [(TInt, VExpr 2)]) /\
  fst (io_meaning BPrintf VNull (VExpr 3) [(TInt, VExpr 2)]) =
    (let e := EIO BPrintf VNull (VExpr 3) TInt (VExpr 2) in [FIO e; FIO (EIO BPrintf VNull (VRest (VExpr 3) e) TVoid (VInt 0))]) /\
  exParse false 0 BPrintf [XExpr exStr] = None.
Proof. repeat split; try reflexivity. eapply s_print; try reflexivity; [cbn; auto|]. eapply (iv_out exIo BPrintf 0 exInt [] []); try reflexivity. constructor. Qed.

(** A call is compiled, with this type, exactly if the documentation gives it this type. *)
Theorem C77_accept : forall conv compat ioOk ioEnd sizeOf less fiberFn compareFn,
  (forall d, conv d TVoid = false) -> (forall d, d <> TVoid -> compat d TVoid = false) -> (forall b i, ioOk b i TVoid = false) ->
  forall n b items t,
  (exists c k, parseCall conv compat ioOk ioEnd sizeOf less fiberFn compareFn false n b items = Some (c, t, k)) <->
  exists m, means conv compat ioOk ioEnd sizeOf less fiberFn compareFn b items t m.
Proof. exact accepts. Qed.
Print Assumptions C77_accept.

(** A call means one thing, and it leaves a value exactly if its type is not void. *)
Theorem C77_meaning : forall conv compat ioOk ioEnd sizeOf less fiberFn compareFn b items t m,
  means conv compat ioOk ioEnd sizeOf less fiberFn compareFn b items t m ->
  (forall t' m', means conv compat ioOk ioEnd sizeOf less fiberFn compareFn b items t' m' -> t = t' /\ m = m') /\
  (t = TVoid <-> snd m = RNone \/ snd m = RQuit).
Proof. intros * M. split; [exact (det _ _ _ _ _ _ _ _ _ _ _ _ M)|exact (void_ok _ _ _ _ _ _ _ _ _ _ _ _ M)]. Qed.
Print Assumptions C77_meaning.

(** The code of a call does what the call means, from every state of the machine: the machine takes the arguments as they
    were written, the result is left on the untouched stack, and other memory is kept. *)
Theorem C77_run : forall conv compat ioOk ioEnd sizeOf less fiberFn compareFn,
  (forall d, conv d TVoid = false) -> (forall d, d <> TVoid -> compat d TVoid = false) -> (forall b i, ioOk b i TVoid = false) ->
  forall n b items t m,
  means conv compat ioOk ioEnd sizeOf less fiberFn compareFn b items t m ->
  exists c, parseCall conv compat ioOk ioEnd sizeOf less fiberFn compareFn false n b items = Some (c, t, None) /\
            forall st, meets n st m (exec c st).
Proof. exact runs_as. Qed.
Print Assumptions C77_run.

(** In constant expressions: the calls allowed are those listed, with constant arguments; they have the type and the value
    of the same call at run time. Missing: no code is generated for sizeof of an expression (see below). *)
Theorem C77_const_partial : forall conv compat ioOk ioEnd sizeOf less fiberFn compareFn n b items,
  (forall c t k, parseCall conv compat ioOk ioEnd sizeOf less fiberFn compareFn true n b items = Some (c, t, k) ->
     exists v, k = Some v /\ constant_call b items /\ means conv compat ioOk ioEnd sizeOf less fiberFn compareFn b items t ([], RVal v) /\
               (c = [] \/ b = BSizeOf /\ exists a, items = [XExpr a] /\ c = [IPop])) /\
  (forall t m, constant_call b items -> means conv compat ioOk ioEnd sizeOf less fiberFn compareFn b items t m ->
     exists c v, parseCall conv compat ioOk ioEnd sizeOf less fiberFn compareFn true n b items = Some (c, t, Some v) /\ m = ([], RVal v)).
Proof. intros. split; [exact (const_ok _ _ _ _ _ _ _ _ _ _ _)|exact (const_back _ _ _ _ _ _ _ _ _ _ _)]. Qed.
Print Assumptions C77_const_partial.
Example C77_example_const : constant_call BAtan2 [XExpr exInt; XExpr exInt] /\
  exParse true 0 BAtan2 [XExpr exInt; XExpr exInt] = Some ([], TReal, Some (VRes BAtan2 [VConv TReal (VExpr 2); VConv TReal (VExpr 2)])).
Proof. split; [|reflexivity]. split; [repeat constructor|left; cbn; tauto]. Qed.

(** A constant expression can generate code: sizeof(5) drops a slot of the stack that it did not push. *)
Theorem C77_sizeof_refuted : exists items c t v,
  parseCall exConv exCompat exIo exEnd exSize exLess (TFn 1) (fun _ => TFn 2) true 0 BSizeOf items = Some (c, t, Some v) /\
  forall x s m nx seen, exec c (MkS (x :: s) m nx seen) = Running (MkS s m nx seen).
Proof. exists [XExpr exInt], [IPop], TInt, (VInt 8). split; reflexivity. Qed.
Print Assumptions C77_sizeof_refuted.

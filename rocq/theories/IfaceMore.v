(** Interfaces: accepted programs, signatures, type assertions. *)
From Coq Require Import ZArith Lia Bool List.
From Verif Require Import Base IfaceModel IfaceSpec IfaceProofs.
Import ListNotations.
Local Open Scope Z_scope.

Section More.
Variables T S : Type.
Variable find : T -> nat -> option (Z * S).
Variable isNull : T -> bool.
Variable compat : S -> S -> bool.
Variable equiv : T -> T -> bool.
Variable tab : nat -> list (nat * S).
Variable eff : Z -> list (val T) -> (nat -> val T) -> (nat -> val T) * val T * val T.
Notation val := (val T).
Notation iface := (iface S).
Notation meths := (meths S tab).
Notation findField := (findField S).
Notation exec := (exec T equiv eff).
Notation content := (content T S).
Notation good := (good T S find isNull tab).
Notation genSource := (genSource T S find isNull compat tab).
Notation genExpr := (genExpr T S find isNull compat tab).
Notation genArgs := (genArgs T S find isNull compat tab).
Notation staticType := (staticType T S).
Notation implements := (implements T S find isNull compat tab).
Notation accepted := (accepted T S find isNull compat tab).
Notation acceptedExpr := (acceptedExpr T S find isNull compat tab).
Notation acceptedArgs := (acceptedArgs T S find isNull compat tab).
Hypothesis REFL : forall s, compat s s = true.

Lemma ptrMeths_accept t l : forall k,
  ((forall n sg, In (n, sg) l -> implements (TyPtr T S t) n sg) /\ exists c, convPtrMeths T S find isNull compat t k l = Ok c)
  \/ (~ (forall n sg, In (n, sg) l -> implements (TyPtr T S t) n sg) /\ convPtrMeths T S find isNull compat t k l = Err EOther).
Proof.
  induction l as [|[n sg] l IH]; intros k; cbn [convPtrMeths]; [left; split; [intros ? ? []|eauto]|].
  assert (X : (implements (TyPtr T S t) n sg /\ exists e, (if isNull t then Ok 0 else match find t n with None => Err EOther | Some (e, s') => if compat sg s' then Ok e else Err EOther end) = Ok e)
    \/ (~ implements (TyPtr T S t) n sg /\ (if isNull t then Ok 0 else match find t n with None => Err EOther | Some (e, s') => if compat sg s' then Ok e else Err EOther end) = Err EOther)).
  { cbn [IfaceSpec.implements]. destruct (isNull t); [left; split; [auto|eauto]|]. destruct (find t n) as [[e s']|] eqn:F.
    - destruct (compat sg s') eqn:C; [left; split; eauto|right; split; [|reflexivity]]. intros [H|(e1 & s1 & E & H)]; [discriminate|]. injection E as <- <-. congruence.
    - right. split; [|reflexivity]. intros [H|(e1 & s1 & E & H)]; discriminate. }
  destruct X as [[X1 (e & ->)]|[X1 ->]]; cbn [bind].
  - destruct (IH (k + 1)%nat) as [[H1 (c & ->)]|[H1 ->]]; cbn [bind].
    + left. split; [|eauto]. intros m s [E|I]; [injection E as <- <-; exact X1|exact (H1 m s I)].
    + right. split; [|reflexivity]. intros H. apply H1. intros m s I. apply H. now right.
  - right. split; [|reflexivity]. intros H. apply X1, H. now left.
Qed.
Lemma ifaceMeths_accept i l : NoDup (map fst (meths i)) -> forall k,
  ((forall n sg, In (n, sg) l -> implements (TyI T S i) n sg) /\ exists c, convIfaceMeths T S compat (meths i) k l = Ok c)
  \/ (~ (forall n sg, In (n, sg) l -> implements (TyI T S i) n sg) /\ convIfaceMeths T S compat (meths i) k l = Err EOther).
Proof.
  intros Nd. induction l as [|[n sg] l IH]; intros k; cbn [convIfaceMeths]; [left; split; [intros ? ? []|eauto]|].
  destruct (findField (meths i) n) as [[j s']|] eqn:F.
  - pose proof (nth_error_In _ _ (findField_nth _ _ _ _ _ F)) as I0. destruct (compat sg s') eqn:C.
    + destruct (IH (k + 1)%nat) as [[H1 (c & ->)]|[H1 ->]]; cbn [bind].
      * left. split; [|eauto]. intros m s [E|I]; [injection E as <- <-; exists s'; auto|exact (H1 m s I)].
      * right. split; [|reflexivity]. intros H. apply H1. intros m s I. apply H. now right.
    + right. split; [|reflexivity]. intros H. destruct (H n sg (or_introl eq_refl)) as (s1 & I1 & C1). destruct (findField_in S compat tab _ n s1 Nd I1) as (j1 & F1). rewrite F in F1. injection F1 as <- <-. congruence.
  - right. split; [|reflexivity]. intros H. destruct (H n sg (or_introl eq_refl)) as (s1 & I1 & C1). apply (proj1 (findField_none S compat tab _ _) F). now apply (in_map fst) in I1.
Qed.

Lemma source_accept s : Forall (fun i => NoDup (map fst (meths i))) (sourceTypes T S s) -> forall next,
  (accepted s /\ exists r, genSource s next = Ok r) \/ (~ accepted s /\ genSource s next = Err EOther).
Proof.
  induction s as [p t|k i|d s IH]; intros Nd next; cbn [IfaceModel.genSource IfaceSpec.accepted]; [left; eauto|left; eauto|].
  inversion Nd as [|? ? _ Nd2]; subst. destruct (IH Nd2 next) as [[A ([c n1] & ->)]|[A ->]]; cbn [bind]; [|right; split; [tauto|reflexivity]].
  destruct (staticType s) as [t|i] eqn:ST.
  - unfold convPtr. destruct (ptrMeths_accept t (meths d) (n1 + 2)%nat) as [[H (c1 & ->)]|[H ->]]; cbn [bind]; [left; split; eauto|right; split; [tauto|reflexivity]].
  - assert (Ni : NoDup (map fst (meths i))). { clear IH A Nd. destruct s as [p t|k i0|d0 s]; cbn in ST; inversion ST; subst; inversion Nd2; assumption. }
    destruct (teq S compat tab d i) eqn:E.
    + left. split; [|eauto]. split; [exact A|]. intros n sg I. apply In_nth_error in I as (j & N). destruct (teq_nth _ _ _ _ _ E REFL _ _ _ N) as (s' & N' & C). exists s'. split; [exact (nth_error_In _ _ N')|exact C].
    + unfold convIface. destruct (ifaceMeths_accept i (meths d) Ni (n1 + 2)%nat) as [[H (c1 & ->)]|[H ->]]; cbn [bind]; [left; split; eauto|right; split; [tauto|reflexivity]].
Qed.
Lemma expr_accept :
  (forall e, Forall (fun i => NoDup (map fst (meths i))) (exprTypes T S e) -> forall next, (acceptedExpr e /\ exists r, genExpr e next = Ok r) \/ (~ acceptedExpr e /\ genExpr e next = Err EOther)) /\
  (forall a, Forall (fun i => NoDup (map fst (meths i))) (argTypes T S a) -> forall next, (acceptedArgs a /\ exists r, genArgs a next = Ok r) \/ (~ acceptedArgs a /\ genArgs a next = Err EOther)).
Proof.
  apply expr_mut.
  - intros z _ next. left. split; [exact I|eexists; reflexivity].
  - intros s n args IHa Nd next. apply Forall_app in Nd as [N1 N2]. rewrite gen_call. change (acceptedExpr (ECall T S s n args)) with (accepted s /\ (exists i, staticType s = TyI T S i /\ In n (map fst (meths i))) /\ acceptedArgs args).
    destruct (source_accept s N1 next) as [[A ([c n1] & ->)]|[A ->]]; cbn [bind]; [|right; split; [tauto|reflexivity]].
    destruct (staticType s) as [t|i]; [right; split; [intros (_ & (i & H & _) & _); discriminate|reflexivity]|].
    destruct (findField (meths i) n) as [[j s']|] eqn:F.
    + pose proof (in_map fst _ _ (nth_error_In _ _ (findField_nth _ _ _ _ _ F))) as I0. cbn in I0.
      destruct (IHa N2 n1) as [[A2 ([c2 n2] & ->)]|[A2 ->]]; cbn [bind]; [left; split; eauto|right; split; [tauto|reflexivity]].
    + apply (findField_none S compat tab) in F. right. split; [|reflexivity]. intros (_ & (i' & H & I0) & _). injection H as <-. tauto.
  - intros _ next. left. split; [exact I|eexists; reflexivity].
  - intros e IHe a IHa Nd next. apply Forall_app in Nd as [N1 N2]. rewrite gen_cons. change (acceptedArgs (ECons T S e a)) with (acceptedExpr e /\ acceptedArgs a).
    destruct (IHe N1 next) as [[A ([c n1] & ->)]|[A ->]]; cbn [bind]; [|right; split; [tauto|reflexivity]].
    destruct (IHa N2 n1) as [[A2 ([c2 n2] & ->)]|[A2 ->]]; cbn [bind]; [left; split; eauto|right; split; [tauto|reflexivity]].
Qed.

(** * Signatures *)
Definition fits (ty : val) (i : iface) : Prop :=
  forall t, ty = VType T t -> isNull t = false -> forall n sg, In (n, sg) (meths i) -> exists e s', find t n = Some (e, s') /\ compat sg s' = true.
Lemma source_fits (vs : nat -> val) s : (forall a b c, compat a b = true -> compat b c = true -> compat a c = true) -> accepted s ->
  (forall k i, In (k, i) (sourceVars T S s) -> fits (vs (k + 1)%nat) i) -> forall i, staticType s = TyI T S i -> fits (snd (content vs s)) i.
Proof.
  intros TR. induction s as [p t|k i|d s IH]; intros A V i0 ST; cbn in ST; try discriminate; injection ST as <-.
  - cbn. apply V. now left.
  - destruct A as [A1 A2]. cbn [IfaceSpec.content]. intros t E Nn n sg I. specialize (A2 n sg I). destruct (staticType s) as [t0|i] eqn:ST; cbn [IfaceSpec.implements] in A2.
    + assert (t0 = t) as <-. { destruct s; cbn in ST; try discriminate. injection ST as ->. cbn in E. now injection E. }
      destruct A2 as [A2|A2]; [congruence|exact A2].
    + destruct A2 as (s' & I' & C). destruct (IH A1 V i eq_refl t E Nn n s' I') as (e & s2 & F & C2). exists e, s2. split; [exact F|]. exact (TR _ _ _ C C2).
Qed.

(** * Type assertions *)
Lemma assert_ok decl s next c next' st i t : genSource s next = Ok (c, next') -> staticType s = TyI T S i ->
  (forall x, In x (sourceVars T S s) -> In x decl) -> good decl (vars T st) -> (exists t', snd (content (vars T st) s) = VType T t') \/ snd (content (vars T st) s) = VInt T 0 ->
  exists st', exec (c ++ [IAssert T t]) st = Ok st' /\ vars T st' = vars T st /\
    stk T st' = match snd (content (vars T st) s) with VType _ t' => if equiv t t' then fst (content (vars T st) s) else VInt T 0 | _ => VInt T 0 end :: stk T st.
Proof.
  intros G ST D Gd Ty. destruct (source_ok T S find isNull compat equiv tab eff decl s next c next' st G D Gd) as (v & tm & X & _ & _ & H). rewrite ST in H. destruct H as (Ins & H0 & H1 & _).
  rewrite exec_app, X. cbn [bind IfaceModel.exec step stk]. 
  assert (E : assertType T equiv (St T (v :: stk T st) (vars T st) tm (self T st) (result T st) (log T st)) t v =
    Ok (match snd (content (vars T st) s) with VType _ t' => if equiv t t' then fst (content (vars T st) s) else VInt T 0 | _ => VInt T 0 end)).
  { destruct v; try (destruct Ins; fail); cbn in H0, H1 |- *; rewrite Nat.add_0_r in H0; injection H0 as ->; injection H1 as ->; destruct Ty as [(t' & ->)| ->]; reflexivity. }
  rewrite E. cbn [bind]. eexists. split; [reflexivity|]. split; reflexivity.
Qed.
End More.

(** More proofs about calls of built-in functions: all documented calls are accepted, and constant expressions. *)
From Coq Require Import ZArith Lia Bool List.
From Verif Require Import BuiltinModel BuiltinSpec BuiltinProofs.
Import ListNotations.
Local Open Scope Z_scope.

Section P.
Variables (conv compat : ty -> ty -> bool) (ioOk : builtin -> nat -> ty -> bool) (ioEnd : builtin -> nat -> bool) (sizeOf : ty -> option Z) (less : ty -> bool).
Variables (fiberFn : ty) (compareFn : ty -> ty).
Hypothesis Hconv : forall d, conv d TVoid = false.
Hypothesis Hcompat : forall d, d <> TVoid -> compat d TVoid = false.
Hypothesis Hio : forall b i, ioOk b i TVoid = false.
Notation parse := (parseCall conv compat ioOk ioEnd sizeOf less fiberFn compareFn).
Notation mean := (means conv compat ioOk ioEnd sizeOf less fiberFn compareFn).

Ltac ins := repeat match goal with
  | H : In _ (_ :: _) |- _ => cbn [In] in H
  | H : _ \/ _ |- _ => destruct H
  | H : _ /\ _ |- _ => destruct H
  | H : exists _, _ |- _ => destruct H
  | H : False |- _ => destruct H
  | H : (_, _) = (_, _) |- _ => injection H as ? ?
  | H : math1 _ _ _ |- _ => inversion H; clear H
  end; subst.
Ltac rw := repeat match goal with
  | H : conv _ _ = true |- _ => rewrite !H; clear H
  | H : compat _ _ = true |- _ => rewrite !H; clear H
  | H : ioEnd _ _ = true |- _ => rewrite !H; clear H
  | H : less _ = true |- _ => rewrite !H; clear H
  | H : a_ty _ = _ |- _ => rewrite !H in *; clear H
  | H : sizeOf _ = Some _ |- _ => rewrite !H; clear H
  | H : ioValues _ _ _ _ = Some _ |- _ => rewrite !H; clear H
  end.
Lemma tyEq_refl t : tyEq t t = true.
Proof. apply tyEq_ok; auto. Qed.

Lemma back n b l t m : mean b l t m -> exists c, parse false n b l = Some (c, t, None).
Proof.
  intros H. destruct H.
  1,2: match goal with V : io_vals _ _ _ _ _ |- _ => apply io_back in V; destruct V as (cv & V) end;
       ins; try discriminate; cbn [parseCall runtimeOnly parseIO]; unfold convert, ioRest, emit; rw; cbn; eauto.
  all: ins; try discriminate; cbn [parseCall runtimeOnly]; 
       unfold parseMath, parseNew, parseMake, parseCopy, parseAppend, parseInsert, parseDelete, parseSlice, parseSort, parseLen, parseCap, parseSizeOf,
         parseSelf, parseSelfTypeEq, parseTypePtr, parseValid, parseValidKey, parseKeys, parseResume, parseLeakSan, parseExit, expr, convert, emit, runtimeOnly.
  all: try (rw; rewrite ?tyEq_refl; cbn; rewrite ?tyEq_refl; eauto; fail).
  all: try (destruct t; try congruence; rw; eauto; fail).
  all: cbv zeta; match goal with H : a_ty _ = TDyn _ |- _ => rewrite H end.
  - destruct (tyEq (TDyn b) (a_ty x)) eqn:E; [apply tyEq_ok in E; congruence|].
    destruct (a_ty x) as [| | | | | | | |b0 n0| | | | | | | |] eqn:X; rw; eauto.
    destruct (tyEq b b0) eqn:Q; [apply tyEq_ok in Q; subst; exfalso; eapply H1; reflexivity|rw; eauto].
  - destruct (tyEq (a_ty x) TBool) eqn:E; [apply tyEq_ok in E; congruence|]. rw; eauto.
Qed.

Lemma io_det b i l vs : io_vals ioOk b i l vs -> forall vs', io_vals ioOk b i l vs' -> vs = vs'.
Proof.
  induction 1; intros vs' V; inversion V; subst; auto; try congruence; f_equal; auto; congruence.
Qed.
Lemma det b l t m : mean b l t m -> forall t' m', mean b l t' m' -> t = t' /\ m = m'.
Proof.
  intros H t' m' H'. destruct H; inversion H'; subst; ins; try discriminate; try congruence;
    repeat match goal with
    | V : io_vals _ _ _ ?l _, V' : io_vals _ _ _ ?l _ |- _ => rewrite (io_det _ _ _ _ V _ V') in *; clear V
    | E : a_ty ?a = _, E' : a_ty ?a = _ |- _ => rewrite E in E'; try discriminate E'; injection E' as ?; subst
    end; try (split; congruence); try (exfalso; congruence).
  all: try (exfalso; eauto; fail).
Qed.

(** Running the code of a documented call. *)
Lemma runs_as n b l t m : mean b l t m -> exists c, parse false n b l = Some (c, t, None) /\ forall st, meets n st m (exec c st).
Proof.
  intros H. destruct (back n _ _ _ _ H) as (c & P). exists c. split; auto.
  destruct (run_ok _ _ _ _ _ _ _ _ Hconv Hcompat Hio _ _ _ _ _ _ P) as (_ & m' & M & R).
  destruct (det _ _ _ _ H _ _ M) as [_ ->]. exact R.
Qed.
Lemma accepts n b l t : (exists c k, parse false n b l = Some (c, t, k)) <-> exists m, mean b l t m.
Proof.
  split.
  - intros (c & k & P). destruct (run_ok _ _ _ _ _ _ _ _ Hconv Hcompat Hio _ _ _ _ _ _ P) as (_ & m & M & _). eauto.
  - intros (m & M). destruct (back n _ _ _ _ M) as (c & P). eauto.
Qed.

(** Constant expressions. *)
Ltac crackc H :=
  repeat (cbv beta iota zeta delta [expr convert emit runtimeOnly] in H;
    match type of H with
    | None = Some _ => discriminate H
    | Some _ = Some _ => fail 1
    | context [a_const ?a] => destruct (a_const a) eqn:?; try discriminate H
    | context [conv ?d ?x] => destruct (conv d x) eqn:?; try discriminate H
    | context [sizeOf ?x] => destruct (sizeOf x) eqn:?; try discriminate H
    | context [match ?x with _ => _ end] => destruct x eqn:?; try discriminate H
    end).
Ltac cc := split; [repeat constructor; auto|cbn [In]; first [tauto | right; left; split; [reflexivity|]; eexists; split; [reflexivity|]; eauto
  | right; right; split; [reflexivity|]; eexists; split; [reflexivity|]; eauto]].
Lemma const_ok n b l c t k : parse true n b l = Some (c, t, k) ->
  exists v, k = Some v /\ constant_call b l /\ mean b l t ([], RVal v) /\ (c = [] \/ b = BSizeOf /\ exists a, l = [XExpr a] /\ c = [IPop]).
Proof.
  intros H. destruct b; cbn [parseCall runtimeOnly] in H; try discriminate H.
  1-13: unfold parseMath in H; destruct l as [|[a| |] [|[x| |] []]]; try discriminate; crackc H; injection H as <- <- <-;
    eexists; (split; [reflexivity|split; [cc|split; [|auto]]]);
    first [eapply s_atan2; assumption|eapply s_math; [first [apply m_int|apply m_to_int; cbn; tauto|apply m_real; cbn; tauto]|assumption]].
  - unfold parseLen in H. destruct l as [|[a| |] []]; try discriminate. crackc H; injection H as <- <- <-;
      eexists; (split; [reflexivity|split; [cc|split; [|auto]]]); [eapply s_len; auto|eapply s_len_array; eauto].
  - unfold parseCap in H. destruct l as [|[a| |] []]; try discriminate. crackc H; injection H as <- <- <-;
      eexists; (split; [reflexivity|split; [cc|split; [|auto]]]). eapply s_cap; auto.
  - unfold parseSizeOf in H. destruct l as [|[a|t0|] []]; try discriminate.
    + cbv beta iota zeta delta [expr] in H. destruct (a_const a) eqn:?; try discriminate. destruct (sizeOf (a_ty a)) eqn:?; try discriminate.
      injection H as <- <- <-. eexists. split; [reflexivity|split; [cc|split; [eapply s_sizeof; eauto|]]].
      cbn [app]. destruct (a_ty a); auto; right; eauto.
    + crackc H. injection H as <- <- <-. eexists. split; [reflexivity|split; [cc|split; [eapply s_sizeof_type; eauto|auto]]].
  - unfold parseTypePtr in H. destruct l as [|[a|t0|] []]; try discriminate.
    assert (t0 <> TVoid /\ t0 <> TNull) as [] by (destruct t0; try discriminate; split; congruence).
    destruct t0; try discriminate; injection H as <- <- <-; eexists; (split; [reflexivity|split; [cc|split; [eapply s_typeptr; congruence|auto]]]).
Qed.
Lemma const_back n b l t m : constant_call b l -> mean b l t m -> exists c v, parse true n b l = Some (c, t, Some v) /\ m = ([], RVal v).
Proof.
  intros [F C] M. destruct M; cbn [In] in C; ins; try discriminate;
    repeat match goal with
    | F : Forall _ (_ :: _) |- _ => inversion F; clear F; subst
    | F : [_] = [_] |- _ => injection F as ->
    end; cbn [parseCall];
    unfold parseMath, parseLen, parseCap, parseSizeOf, parseTypePtr, expr, convert, emit, runtimeOnly;
    repeat match goal with H : a_const _ = true |- _ => rewrite !H; clear H end; try congruence;
    rw; try (do 2 eexists; split; reflexivity).
  destruct t; try congruence; do 2 eexists; split; reflexivity.
Qed.
Lemma void_ok b l t m : mean b l t m -> (t = TVoid <-> snd m = RNone \/ snd m = RQuit).
Proof.
  intros M. destruct M; ins; cbn; split; intros X; ins; try discriminate; try congruence; auto.
Qed.
End P.

(** Binary operators with operands of different types: which are accepted, and what they
    do. *)
From Coq Require Import ZArith Lia Bool List.
From Coq.Floats Require Import SpecFloat.
From Verif Require Import Base NumModel NumSpec NumProofs OperModel OperSpec.
Import ListNotations.
Local Open Scope Z_scope.

Lemma equivalent_eq a b : equivalent a b = true <-> a = b.
Proof. unfold equivalent. destruct (tyEq a b); split; congruence. Qed.

Lemma equivalent_refl a : equivalent a a = true.
Proof. now apply equivalent_eq. Qed.

Lemma integer_isInt t : integer t = true <-> isInt t.
Proof.
  split.
  - destruct t as [k [e|]| | | | | | | | | | |]; cbn; try discriminate.
    intros H. exists k. split; auto. destruct k; try discriminate H; cbn; tauto.
  - intros (k & -> & H). cbn in H. cbn. repeat destruct H as [<-|H]; try reflexivity. destruct H.
Qed.

Lemma real_isReal t : proper t -> real t = true <-> isReal t.
Proof.
  intros P. split.
  - destruct t as [k [e|]| | | | | | | | | | |]; cbn in *; try discriminate; intros H.
    + destruct k; discriminate.
    + exists k. split; auto. destruct k; try discriminate H; cbn; tauto.
  - intros (k & -> & H). cbn in H. cbn. repeat destruct H as [<-|H]; try reflexivity. destruct H.
Qed.

Lemma int_not_real t : isInt t -> isReal t -> False.
Proof.
  intros (k & -> & H) (k' & E & H'). injection E as <-. cbn in *.
  repeat destruct H as [<-|H]; try destruct H;
    repeat destruct H' as [H'|H']; congruence || destruct H'.
Qed.

(** What a conversion does. *)
Inductive convCase (dest src : ty) (lhs : bool) : ty * list instr -> Prop :=
| c_real k : isReal dest -> isInt src -> src = TNum k None ->
    convCase dest src lhs (dest, [IReal lhs k])
| c_char : dest = TStr -> src = tChar -> convCase dest src lhs (dest, swapped lhs [IMakeStr src])
| c_chars : dest = TStr -> src = TDyn tChar ->
    convCase dest src lhs (dest, swapped lhs [IMakeStr src])
| c_arr n u : dest = TArr n u -> src = TDyn u ->
    convCase dest src lhs (dest, swapped lhs [IMakeArr n u])
| c_iface i c : dest = TIface i -> convCase dest src lhs (dest, c)
| c_void b : dest = TPtr TVoid -> src = TPtr b -> convCase dest src lhs (dest, [])
| c_null b : dest = TPtr b -> src = TPtr TNull -> convCase dest src lhs (dest, [])
| c_weak b c : dest = TPtr b -> src = TWeak c -> (b = c \/ b = TNull) ->
    convCase dest src lhs (dest, swapped lhs [IStrengthen])
| c_clos i : dest = TClosure i -> convCase dest src lhs (dest, [IToClosure])
| c_none : convCase dest src lhs (src, []).

Lemma conv_case dest src lhs : proper dest -> proper src ->
  convCase dest src lhs (conv dest src lhs).
Proof.
  intros Pd Ps. unfold conv. destruct (real dest && integer src) eqn:E.
  - apply andb_true_iff in E as [E1 E2]. apply real_isReal in E1; auto.
    apply integer_isInt in E2. pose proof E2 as (k & -> & _). cbn [kindOf].
    eapply c_real; eauto.
  - clear E. destruct dest as [k e| | | |b|b|t|n t|i|i|i|i]; try apply c_none.
    + destruct src as [k [e|]| | | |b|b|t|n t|i|i|i|i]; try apply c_none.
      * destruct k; try apply c_none. discriminate Ps.
      * destruct k; try apply c_none. now apply c_char.
      * destruct t as [k [e|]| | | |b|b|t|n t|i|i|i|i]; try apply c_none;
          destruct k; try apply c_none; [discriminate Ps|]. now apply c_chars.
    + destruct b as [k e| | | |b|b|t|n t|i|i|i|i];
        destruct src as [k' e'| | | |b'|b'|t'|n' t'|i'|i'|i'|i']; try apply c_none;
        try (eapply c_void; reflexivity);
        try (destruct b' as [k' e'| | | |b'|b'|t'|n' t'|i'|i'|i'|i']; try apply c_none;
             try (eapply c_null; reflexivity));
        match goal with |- context [if ?x || ?y then _ else _] =>
          destruct (x || y) eqn:E; [|apply c_none] end;
        (eapply c_weak; [reflexivity|reflexivity|]);
        apply orb_true_iff in E as [E|E]; apply equivalent_eq in E; subst; auto.
    + destruct src as [k' e'| | | |b'|b'|t'|n' t'|i'|i'|i'|i']; try apply c_none.
      destruct (equivalent t t') eqn:E; [|apply c_none]. apply equivalent_eq in E. subst.
      now apply c_arr.
    + destruct src as [k' e'| | | |b'|b'|t'|n' t'|i'|i'|i'|i']; try apply c_none;
        try (eapply c_iface; reflexivity).
      destruct (equivalent (TIface i) (TIface i')) eqn:E; [apply c_none|].
      eapply c_iface; reflexivity.
    + destruct src as [k' e'| | | |b'|b'|t'|n' t'|i'|i'|i'|i']; try apply c_none.
      destruct (Nat.eqb i i'); [eapply c_clos; reflexivity|apply c_none].
Qed.

Lemma conv_same t lhs : conv t t lhs = (t, []).
Proof.
  unfold conv. destruct (real t && integer t) eqn:E.
  - exfalso. apply andb_true_iff in E as [E1 E2].
    destruct t as [k [e|]| | | | | | | | | | |]; try discriminate. destruct k; discriminate.
  - destruct t as [k e| | | |b|b|t|n t|i|i|i|i]; try reflexivity.
    + destruct b; reflexivity.
    + rewrite equivalent_refl. reflexivity.
Qed.

Lemma conv_int a b lhs : isInt a -> conv a b lhs = (b, []).
Proof.
  intros A. destruct A as (k & -> & I). unfold conv.
  replace (real (TNum k None)) with false; [reflexivity|].
  cbn in *. repeat destruct I as [<-|I]; try reflexivity; destruct I.
Qed.

Lemma conv_real a b lhs : isReal a -> isReal b -> conv a b lhs = (b, []).
Proof.
  intros (k & -> & I) B. unfold conv.
  replace (integer b) with false; [rewrite andb_false_r; reflexivity|].
  symmetry. apply not_true_iff_false. intros K. apply integer_isInt in K.
  eapply int_not_real; eauto.
Qed.

Ltac meets :=
  first [ apply m_same | apply m_real_int; assumption | apply m_int_real; assumption
        | apply m_str_char | apply m_char_str | apply m_str_chars | apply m_chars_str
        | apply m_arr_dyn | apply m_dyn_arr | apply m_void_ptr | apply m_ptr_void
        | apply m_ptr_null | apply m_null_ptr | apply m_ptr_weak | apply m_weak_ptr
        | apply m_null_weak | apply m_weak_null ].

Section Oper.
Variable cmpOther : nat -> bool.

Notation valid := (valid cmpOther).
Notation comparable := (comparable cmpOther).
Notation applyOperator := (applyOperator cmpOther).

Lemma comparable_can t : comparable t = true <-> canCompare cmpOther t.
Proof.
  split.
  - induction t; cbn; try discriminate; intros H; constructor; auto.
  - induction 1; cbn; auto.
Qed.

Lemma valid_suits o t : proper t -> infix o = true -> valid t o = true <-> suits cmpOther o t.
Proof.
  intros P. destruct o; cbn [infix valid suits]; intros H; try discriminate H;
    rewrite ?orb_true_iff, ?comparable_can, ?integer_isInt, ?real_isReal, ?equivalent_eq by auto;
    tauto.
Qed.

Lemma meet_proper l r t : meet l r t -> proper l -> proper r -> proper t.
Proof. intros H Pl Pr. destruct H; auto; exact I. Qed.


Lemma apply_inv o l r t c : applyOperator o l r true = Ok (t, c) ->
  exists r' c1 c2, conv l r false = (r', c1) /\ conv r' l true = (t, c2) /\
    compatible t r' = true /\ valid t o = true /\ c = c1 ++ c2 ++ [IBin o t].
Proof.
  unfold OperModel.applyOperator. destruct (conv l r false) as [r' c1] eqn:E1.
  destruct (conv r' l true) as [l' c2] eqn:E2.
  destruct (compatible l' r') eqn:E3; [|discriminate]. cbn [negb].
  destruct (valid l' o) eqn:E4; [|discriminate]. cbn [negb].
  intros H. injection H as <- <-. eauto 10.
Qed.

(** The three ways in which two operands meet. *)
Inductive joins (o : op) (l r t : ty) : list instr -> Prop :=
| j_right c1 : t = l -> conv l r false = (l, c1) -> c1 <> [] \/ r <> l ->
    convCase l r false (l, c1) -> meet l r t -> joins o l r t (c1 ++ [IBin o t])
| j_left c2 : t = r -> convCase r l true (r, c2) -> meet l r t -> joins o l r t (c2 ++ [IBin o t])
| j_none : t = l -> (l = r \/ (isInt l /\ isInt r) \/ (isReal l /\ isReal r)) ->
    joins o l r t [IBin o t].

Lemma not_valid_iface i o : infix o = true -> valid (TIface i) o = false.
Proof. destruct o; reflexivity || discriminate. Qed.
Lemma not_valid_clos i o : infix o = true -> valid (TClosure i) o = false.
Proof. destruct o; reflexivity || discriminate. Qed.

Lemma case_meet_right l r lhs c : convCase l r lhs (l, c) ->
  (forall i, l <> TIface i) -> (forall i, l <> TClosure i) -> meet l r l.
Proof.
  intros H Hi Hc. inversion H; subst; try (exfalso; eapply Hi; reflexivity);
    try (exfalso; eapply Hc; reflexivity); try meets.
  match goal with K : _ \/ _ |- _ => destruct K as [->| ->]; meets end.
Qed.

Lemma case_meet_left l r lhs c : convCase r l lhs (r, c) ->
  (forall i, r <> TIface i) -> (forall i, r <> TClosure i) -> meet l r r.
Proof.
  intros H Hi Hc. inversion H; subst; try (exfalso; eapply Hi; reflexivity);
    try (exfalso; eapply Hc; reflexivity); try meets.
  match goal with K : _ \/ _ |- _ => destruct K as [->| ->]; meets end.
Qed.

Lemma compatible_inv l r : proper l -> proper r -> compatible l r = true ->
  l = r \/ (isInt l /\ isInt r) \/ (isReal l /\ isReal r).
Proof.
  intros Pl Pr H. unfold compatible in H. apply orb_true_iff in H as [H|H].
  - apply orb_true_iff in H as [H|H].
    + apply equivalent_eq in H. auto.
    + apply andb_true_iff in H as [A B]. apply integer_isInt in A, B. auto.
  - apply andb_true_iff in H as [A B]. apply real_isReal in A, B; auto.
Qed.

Lemma apply_joins o l r t c : proper l -> proper r -> infix o = true ->
  applyOperator o l r true = Ok (t, c) -> joins o l r t c /\ meet l r t.
Proof.
  intros Pl Pr Ho H. apply apply_inv in H as (r' & c1 & c2 & E1 & E2 & Hc & Hv & ->).
  pose proof (conv_case l r false Pl Pr) as C1. rewrite E1 in C1.
  assert (D : (r' = l /\ convCase l r false (l, c1)) \/ (r' = r /\ c1 = [])).
  { inversion C1; subst; auto. }
  destruct D as [[-> C]|[-> ->]].
  - rewrite conv_same in E2. injection E2 as <- <-.
    assert (M : meet l r l).
    { eapply case_meet_right; [exact C| |]; intros i ->;
        [rewrite not_valid_iface in Hv by auto|rewrite not_valid_clos in Hv by auto]; discriminate. }
    split; auto. cbn [app].
    destruct (tyEq r l) as [->|N].
    + rewrite conv_same in E1. injection E1 as <-. apply j_none; auto.
    + eapply j_right; auto.
  - cbn [app].
    pose proof (conv_case r l true Pr Pl) as C2. rewrite E2 in C2.
    assert (D : (t = r /\ convCase r l true (r, c2)) \/ (t = l /\ c2 = [])).
    { inversion C2; subst; auto. }
    destruct D as [[-> C]|[-> ->]].
    + assert (M : meet l r r).
      { eapply case_meet_left; [exact C| |]; intros i ->;
          [rewrite not_valid_iface in Hv by auto|rewrite not_valid_clos in Hv by auto]; discriminate. }
      split; auto. now apply j_left.
    + apply compatible_inv in Hc; auto. split; [now apply j_none|].
      destruct Hc as [->|[[A B]|[A B]]]; [apply m_same|now apply m_int|now apply m_real].
Qed.

Lemma meet_compat l r t : proper l -> proper r -> meet l r t ->
  exists c, forall o, valid t o = true -> exists c', applyOperator o l r true = Ok (t, c') /\ c' = c ++ [IBin o t].
Proof.
  intros Pl Pr M. unfold OperModel.applyOperator.
  pose proof conv_int as SI. pose proof conv_real as SR.
  assert (SRI : forall a b lhs, isReal a -> isInt b -> conv a b lhs = (a, [IReal lhs (kindOf b)])).
  { intros a b lhs A B. unfold conv.
    apply integer_isInt in B. rewrite B.
    destruct A as (k & -> & I). cbn [real].
    replace (kindReal k) with true; [reflexivity|].
    cbn in *. repeat destruct I as [<-|I]; try reflexivity; destruct I. }
  assert (CI : forall a b, isInt a -> isInt b -> compatible a b = true).
  { intros a b A B. apply integer_isInt in A, B. unfold compatible. rewrite A, B.
    rewrite !orb_true_r. reflexivity. }
  assert (CR : forall a b, proper a -> proper b -> isReal a -> isReal b -> compatible a b = true).
  { intros a b Pa Pb A B. apply real_isReal in A, B; auto. unfold compatible. rewrite A, B.
    rewrite !orb_true_r. reflexivity. }
  assert (CS : forall a, compatible a a = true).
  { intros a. unfold compatible. rewrite equivalent_refl. reflexivity. }
  destruct M as [t|l r A B|l r A B|l r A B|l r A B| | | | |n t|n t|b|b|b|b|b|b|b|b].
  - exists []. intros o V. rewrite !conv_same, CS, V. cbn. eauto.
  - exists []. intros o V. rewrite !SI, CI, V by auto. cbn. eauto.
  - exists []. intros o V. rewrite !SR, CR, V by auto. cbn. eauto.
  - exists [IReal false (kindOf r)]. intros o V. rewrite SRI, conv_same, CS, V by auto. cbn. eauto.
  - exists [IReal true (kindOf l)]. intros o V. rewrite SI, SRI, CS, V by auto. cbn. eauto.
  - exists [IMakeStr tChar]. intros o V.
    replace (conv TStr tChar false) with (TStr, [IMakeStr tChar]) by reflexivity.
    rewrite conv_same, CS, V. cbn. eauto.
  - exists [ISwap; IMakeStr tChar; ISwap]. intros o V.
    replace (conv tChar TStr false) with (TStr, @nil instr) by reflexivity.
    replace (conv TStr tChar true) with (TStr, [ISwap; IMakeStr tChar; ISwap]) by reflexivity.
    rewrite CS, V. cbn. eauto.
  - exists [IMakeStr (TDyn tChar)]. intros o V.
    replace (conv TStr (TDyn tChar) false) with (TStr, [IMakeStr (TDyn tChar)]) by reflexivity.
    rewrite conv_same, CS, V. cbn. eauto.
  - exists [ISwap; IMakeStr (TDyn tChar); ISwap]. intros o V.
    replace (conv (TDyn tChar) TStr false) with (TStr, @nil instr) by reflexivity.
    replace (conv TStr (TDyn tChar) true) with (TStr, [ISwap; IMakeStr (TDyn tChar); ISwap]) by reflexivity.
    rewrite CS, V. cbn. eauto.
  - exists [IMakeArr n t]. intros o V.
    replace (conv (TArr n t) (TDyn t) false) with (TArr n t, [IMakeArr n t])
      by (unfold conv; cbn [real integer andb]; rewrite equivalent_refl; reflexivity).
    rewrite conv_same, CS, V. cbn. eauto.
  - exists [ISwap; IMakeArr n t; ISwap]. intros o V.
    replace (conv (TDyn t) (TArr n t) false) with (TArr n t, @nil instr) by reflexivity.
    replace (conv (TArr n t) (TDyn t) true) with (TArr n t, [ISwap; IMakeArr n t; ISwap])
      by (unfold conv; cbn [real integer andb]; rewrite equivalent_refl; reflexivity).
    rewrite CS, V. cbn. eauto.
  - exists []. intros o V.
    replace (conv (TPtr TVoid) (TPtr b) false) with (TPtr TVoid, @nil instr) by reflexivity.
    rewrite conv_same, CS, V. cbn. eauto.
  - exists []. intros o V. 
    replace (conv (TPtr b) (TPtr TVoid) false) with (TPtr TVoid, @nil instr) by (destruct b; reflexivity).
    replace (conv (TPtr TVoid) (TPtr b) true) with (TPtr TVoid, @nil instr) by reflexivity.
    rewrite CS, V. cbn. eauto.
  - exists []. intros o V.
    replace (conv (TPtr b) (TPtr TNull) false) with (TPtr b, @nil instr) by (destruct b; reflexivity).
    rewrite conv_same, CS, V. cbn. eauto.
  - exists []. intros o V.
    assert (E : exists x, conv (TPtr TNull) (TPtr b) false = (x, []) /\ x = TPtr b).
    { destruct b; eexists; split; reflexivity. }
    destruct E as (x & -> & ->).
    replace (conv (TPtr b) (TPtr TNull) true) with (TPtr b, @nil instr) by (destruct b; reflexivity).
    rewrite CS, V. cbn. eauto.
  - exists [IStrengthen]. intros o V.
    replace (conv (TPtr b) (TWeak b) false) with (TPtr b, [IStrengthen])
      by (unfold conv; cbn [real integer andb]; rewrite equivalent_refl; destruct b; reflexivity).
    rewrite conv_same, CS, V. cbn. eauto.
  - exists [ISwap; IStrengthen; ISwap]. intros o V.
    replace (conv (TWeak b) (TPtr b) false) with (TPtr b, @nil instr) by reflexivity.
    replace (conv (TPtr b) (TWeak b) true) with (TPtr b, [ISwap; IStrengthen; ISwap])
      by (unfold conv; cbn [real integer andb]; rewrite equivalent_refl; destruct b; reflexivity).
    rewrite CS, V. cbn. eauto.
  - exists [IStrengthen]. intros o V.
    replace (conv (TPtr TNull) (TWeak b) false) with (TPtr TNull, [IStrengthen])
      by (unfold conv; cbn [real integer andb]; rewrite (equivalent_refl TNull), orb_true_r; reflexivity).
    rewrite conv_same, CS, V. cbn. eauto.
  - exists [ISwap; IStrengthen; ISwap]. intros o V.
    replace (conv (TWeak b) (TPtr TNull) false) with (TPtr TNull, @nil instr) by reflexivity.
    replace (conv (TPtr TNull) (TWeak b) true) with (TPtr TNull, [ISwap; IStrengthen; ISwap])
      by (unfold conv; cbn [real integer andb]; rewrite (equivalent_refl TNull), orb_true_r; reflexivity).
    rewrite CS, V. cbn. eauto.
Qed.

Theorem accepted_iff o l r t : proper l -> proper r -> infix o = true ->
  (exists c, applyOperator o l r true = Ok (t, c)) <-> (meet l r t /\ suits cmpOther o t).
Proof.
  intros Pl Pr Ho. split.
  - intros (c & H). destruct (apply_joins _ _ _ _ _ Pl Pr Ho H) as [_ M]. split; auto.
    apply valid_suits; auto; [eapply meet_proper; eauto|].
    apply apply_inv in H as (? & ? & ? & _ & _ & _ & V & _). exact V.
  - intros [M S]. destruct (meet_compat l r t Pl Pr M) as (c & H).
    destruct (H o) as (c' & E & _); eauto. apply valid_suits; auto. eapply meet_proper; eauto.
Qed.
End Oper.

(** Proofs for DesigModel. *)
From Coq Require Import Bool List.
From Verif Require Import DesigModel DesigSpec.
Import ListNotations.

Lemma decl_sound : forall n l, length l <= n -> declAhead l = true -> declStart l.
Proof.
  induction n as [|n IH]; intros l Hn H.
  - destruct l; [discriminate | cbn in Hn; inversion Hn].
  - destruct l as [|a [|b r]]; cbn in H; try discriminate; destruct a; try discriminate; destruct b; try discriminate.
    + constructor 2. apply IH; [|exact H]. cbn in Hn. apply le_S_n in Hn. apply PeanoNat.Nat.lt_le_incl. exact Hn.
    + constructor 1.
Qed.
Lemma decl_complete : forall l, declStart l -> declAhead l = true.
Proof. induction 1 as [r|r _ IH]; cbn; [reflexivity | exact IH]. Qed.
Lemma decl_iff : forall l, declAhead l = true <-> declStart l.
Proof. intros l. split; [apply (decl_sound (length l)); constructor | apply decl_complete]. Qed.
Lemma forin_true : forall l, forInStart l -> forInAhead l = true.
Proof. intros l H. destruct H; reflexivity. Qed.
Lemma forin_false : forall l, forStart l -> forInAhead l = false.
Proof.
  intros l H. destruct H as [r H | a b r H1 H2]; unfold forInAhead.
  - rewrite (decl_complete _ H). reflexivity.
  - destruct (declAhead (a :: b :: r)); [reflexivity|]. destruct b; try reflexivity; congruence.
Qed.
Lemma switch_iff : forall l, typeSwitchAhead l = true <-> exists r, l = [KSwitch; KIdent; KColonEq; KType] ++ r.
Proof.
  intros l. split.
  - intros H. destruct l as [|a [|b [|c [|e r]]]]; cbn in H; try discriminate;
      destruct a; try discriminate; destruct b; try discriminate; destruct c; try discriminate; destruct e; try discriminate.
    exists r. reflexivity.
  - intros [r ->]. reflexivity.
Qed.

(** ** Types *)
Lemma structured_iff : forall t, structured t = true <-> composite t.
Proof.
  intros t. unfold composite. split.
  - destruct t; try discriminate; intros _; eauto 6.
  - intros [[e [->|[->| ->]]]|[[fs ->]|[r ->]]]; reflexivity.
Qed.
Lemma ok_points : forall t b, ok t -> points t b -> ok b /\ forall r, b <> TFn r.
Proof. intros t b H P. destruct P; inversion H as [? HI| | | | | | | |]; subst; try (split; assumption); cbn in HI; intuition discriminate. Qed.
Lemma ok_through : forall p t c, ok t -> through p t c -> ok c.
Proof.
  intros p t c H [->|T]; [exact H|]. destruct p.
  - exact (proj1 (ok_points _ _ H T)).
  - destruct T as [->|[q [-> P]]].
    + exact (proj1 (ok_points _ _ H (P1 _))).
    + exact (proj1 (ok_points _ _ (proj1 (ok_points _ _ H (P1 _))) P)).
Qed.
Lemma ok_item : forall c e, ok c -> item c e -> ok e /\ holdable e.
Proof. intros c e H I. destruct I; inversion H as [? HI| | | | | | | |]; subst; try (split; assumption); cbn in HI; intuition discriminate. Qed.
Lemma ok_field : forall fs i e, ok (TStruct fs) -> nth_error fs i = Some e -> ok e /\ holdable e.
Proof.
  intros fs i e H N. inversion H as [? HI| | | | | |? HF| |]; subst; [cbn in HI; intuition discriminate|].
  exact (proj1 (Forall_forall _ _) HF e (nth_error_In _ _ N)).
Qed.
Lemma ok_fn : forall c r, ok c -> fn c r -> ok r /\ forall q, r <> TFn q.
Proof. intros c r H I. destruct I; inversion H as [? HI| | | | | | | |]; subst; try (split; assumption); cbn in HI; intuition discriminate. Qed.

(** ** The types and flags represent what is denoted *)
Definition rep (f : flags) (p : bool) (u : ty) : Prop :=
  ok u /\
  if p then holdable u /\ f_var f = true /\ f_call f = false /\ f_lit f = false /\ (f_ty f = TPtr u \/ (structured u = true /\ f_ty f = u))
  else f_ty f = u /\ (f_var f = true -> structured u = true).
Definition good (d : desig) (f : flags) : Prop := exists p u, den d p u /\ rep f p u.

Lemma rep_slot : forall t, ok t -> holdable t -> rep (MkF (slotType t) true false false) true t.
Proof. intros t H1 H2. repeat split; try assumption; try apply H2. cbn [f_ty]. unfold slotType. destruct (structured t); auto. Qed.

Lemma good_deref : forall d f g, good d f -> derefSel f = Some g -> good (DSel d SDeref) g.
Proof.
  intros d f g (p & u & D & O & R) H. unfold derefSel in H.
  assert (E : exists b, points u b /\ b <> TVoid /\ b <> TNull /\ g = MkF (TPtr b) true false false).
  { destruct p.
    - destruct R as (_ & V & _ & _ & [T|[S T]]); rewrite V, T in H.
      + destruct u as [| | | | | |b|b| | | | | |]; try discriminate; exists b; destruct b; try discriminate;
          injection H as <-; repeat split; try constructor; discriminate.
      + destruct u; discriminate.
    - destruct R as (T & S). destruct (f_var f).
      + rewrite T in H. specialize (S eq_refl). destruct u; discriminate.
      + rewrite T in H. destruct u as [| | | | | |b|b| | | | | |]; try discriminate; exists b; destruct b; try discriminate;
          injection H as <-; repeat split; try constructor; discriminate. }
  destruct E as (b & P & B1 & B2 & ->). exists true, b. split; [exact (NDeref d p u b D P B1 B2)|].
  destruct (ok_points _ _ O P) as [Ob Hb]. repeat split; try assumption. left. reflexivity.
Qed.

(** What indexSel, fieldSel and callSel look at after their implicit dereferences. *)
Lemma look : forall f p u, rep f p u ->
  forall c, implicitDeref (f_ty f) = TPtr c \/ (implicitDeref (f_ty f) = c /\ (forall b, c <> TPtr b)) -> through p u c.
Proof.
  intros f p u (O & R) c H. destruct p.
  - destruct R as (_ & _ & _ & _ & [T|[S T]]); rewrite T in H.
    + destruct H as [H|[H N]].
      * destruct u; cbn [implicitDeref] in H; injection H as <-; first [right; constructor; fail | left; reflexivity].
      * exfalso. destruct u; cbn [implicitDeref] in H; subst c; eapply N; reflexivity.
    + destruct u; try discriminate; cbn [implicitDeref] in H; (destruct H as [H|[H N]]; [discriminate | left; congruence]).
  - destruct R as (T & S). rewrite T in H. destruct H as [H|[H N]].
    + destruct u as [| | | | | |q|q| | | | | |]; cbn [implicitDeref] in H; try discriminate.
      destruct q; injection H as <-; right;
        first [left; reflexivity | right; eexists; split; [reflexivity | constructor]].
    + destruct u as [| | | | | |q|q| | | | | |]; cbn [implicitDeref] in H; try (left; congruence).
      exfalso. destruct q; subst c; eapply N; reflexivity.
Qed.

Lemma good_index : forall d f g, good d f -> indexSel f = Some g -> good (DSel d SIndex) g.
Proof.
  intros d f g (p & u & D & R) H. pose proof (look f p u R) as L. unfold indexSel in H.
  assert (E : (exists c e, through p u c /\ item c e /\ g = MkF (slotType e) true false false)
              \/ (through p u TStr /\ g = MkF TChar false false false)).
  { destruct (implicitDeref (f_ty f)) as [| | | | | |c|c|e|e|e| | |] eqn:Q; try discriminate.
    - right. injection H as <-. split; [apply L; right; split; [reflexivity | discriminate] | reflexivity].
    - destruct c as [| | | | | |c|c|e|e|e| | |]; try discriminate; injection H as <-.
      + right. split; [apply L; left; reflexivity | reflexivity].
      + left. exists (TArr e), e. split; [apply L; left; reflexivity | split; [constructor | reflexivity]].
      + left. exists (TDyn e), e. split; [apply L; left; reflexivity | split; [constructor | reflexivity]].
      + left. exists (TMap e), e. split; [apply L; left; reflexivity | split; [constructor | reflexivity]].
    - left. injection H as <-. exists (TArr e), e. split; [apply L; right; split; [reflexivity | discriminate] | split; [constructor | reflexivity]].
    - left. injection H as <-. exists (TDyn e), e. split; [apply L; right; split; [reflexivity | discriminate] | split; [constructor | reflexivity]].
    - left. injection H as <-. exists (TMap e), e. split; [apply L; right; split; [reflexivity | discriminate] | split; [constructor | reflexivity]]. }
  destruct E as [(c & e & T & I & ->)|[T ->]].
  - exists true, e. split; [exact (NIndex d p u c e D T I)|].
    destruct (ok_item c e (ok_through p u c (proj1 R) T) I) as [A B]. apply rep_slot; assumption.
  - exists false, TChar. split; [exact (NChar d p u D T)|].
    split; [constructor; cbn; auto|]. split; [reflexivity | discriminate].
Qed.

Lemma selected_look : forall f p u c, rep f p u -> selected (f_ty f) = Some c -> through p u c.
Proof.
  intros f p u c R H. apply (look f p u R). unfold selected in H.
  destruct (implicitDeref (f_ty f)); cbn [structured] in H; try discriminate; injection H as <-;
    first [left; reflexivity | right; split; [reflexivity | discriminate]].
Qed.

Lemma good_field : forall d f i g, good d f -> fieldSel f i = Some g -> good (DSel d (SField i)) g.
Proof.
  intros d f i g (p & u & D & R) H. unfold fieldSel in H.
  destruct (selected (f_ty f)) as [c|] eqn:Q; [|discriminate]. destruct c as [| | | | | | | | | | |fs| |]; try discriminate.
  destruct (nth_error fs i) as [e|] eqn:N; [|discriminate]. injection H as <-.
  pose proof (selected_look f p u _ R Q) as T. exists true, e. split; [exact (NField d p u fs i e D T N)|].
  destruct (ok_field fs i e (ok_through p u _ (proj1 R) T) N) as [A B]. apply rep_slot; assumption.
Qed.

Lemma good_method : forall d f r g, ok r -> (forall q, r <> TFn q) -> good d f -> methodSel f r = Some g -> good (DSel d (SMethod r)) g.
Proof.
  intros d f r g O1 O2 (p & u & D & R) H. unfold methodSel in H.
  destruct (selected (f_ty f)) as [c|] eqn:Q; [|discriminate]. injection H as <-.
  assert (X : receiver p u).
  { destruct p; [left; reflexivity|]. right. destruct R as (_ & T & _). rewrite T in Q.
    destruct u as [| | | | | |q| | | | | | |]; try discriminate; first [left; apply structured_iff; reflexivity | right; exists q; reflexivity]. }
  exists false, (TFn r). split; [exact (NMethod d p u r D X O1 O2)|].
  split; [constructor; assumption|]. split; [reflexivity | discriminate].
Qed.

Lemma good_call : forall d f g, good d f -> callSel f = Some g -> good (DSel d SCall) g.
Proof.
  intros d f g (p & u & D & R) H. pose proof (look f p u R) as L. unfold callSel in H.
  assert (E : exists c r, through p u c /\ fn c r /\ g = MkF r (structured r) true false).
  { destruct (implicitDeref (f_ty f)) as [| | | | | |c|c|e|e|e| |r|r] eqn:Q; try discriminate.
    - destruct c as [| | | | | |c|c|e|e|e| |r|r]; try discriminate; injection H as <-; eexists _, r;
        (split; [apply L; left; reflexivity | split; [constructor | reflexivity]]).
    - injection H as <-. exists (TFn r), r. split; [apply L; right; split; [reflexivity | discriminate] | split; [constructor | reflexivity]].
    - injection H as <-. exists (TClo r), r. split; [apply L; right; split; [reflexivity | discriminate] | split; [constructor | reflexivity]]. }
  destruct E as (c & r & T & F & ->). exists false, r. split; [exact (NCall d p u c r D T F)|].
  split; [exact (proj1 (ok_fn c r (ok_through p u c (proj1 R) T) F))|]. split; [reflexivity | auto].
Qed.

Lemma designator_good : forall d f, written d -> designator d = Some f -> good d f.
Proof.
  induction d as [h|d IH s]; intros f W H.
  - cbn [designator] in H. injection H as <-. destruct h as [t|t|t|t|t]; cbn [written] in W.
    + destruct W as [W1 W2]. exists true, t. split; [constructor; assumption | apply rep_slot; assumption].
    + exists false, t. split; [constructor; assumption|]. split; [assumption|]. split; [reflexivity | discriminate].
    + destruct W. exists false, t. split; [constructor; assumption|]. split; [assumption|]. split; [reflexivity | discriminate].
    + destruct W. exists false, t. split; [constructor; assumption|]. split; [assumption|]. split; [reflexivity | auto].
    + destruct W. exists false, t. split; [constructor; assumption|]. split; [assumption|]. split; [reflexivity | auto].
  - cbn [designator] in H. destruct (designator d) as [f0|]; [|discriminate].
    destruct s as [| |i|r|]; cbn [written] in W.
    + exact (good_deref d f0 f (IH f0 W eq_refl) H).
    + exact (good_index d f0 f (IH f0 W eq_refl) H).
    + exact (good_field d f0 i f (IH f0 W eq_refl) H).
    + destruct W as (W & O1 & O2). exact (good_method d f0 r f O1 O2 (IH f0 W eq_refl) H).
    + exact (good_call d f0 f (IH f0 W eq_refl) H).
Qed.

(** ** What is denoted is determined *)
Lemma through_item : forall p t c c' e e', through p t c -> item c e -> through p t c' -> item c' e' -> e = e'.
Proof.
  intros p t c c' e e' T I T' I'. destruct p; destruct T as [->|T]; destruct T' as [T'|T']; subst;
    repeat match goal with
           | H : _ \/ _ |- _ => destruct H
           | H : exists _, _ |- _ => destruct H
           | H : _ /\ _ |- _ => destruct H
           | H : points _ _ |- _ => inversion H; subst; clear H
           end; subst; inversion I; subst; inversion I'; subst; congruence.
Qed.
Lemma through_fn : forall p t c c' e e', through p t c -> fn c e -> through p t c' -> fn c' e' -> e = e'.
Proof.
  intros p t c c' e e' T I T' I'. destruct p; destruct T as [->|T]; destruct T' as [T'|T']; subst;
    repeat match goal with
           | H : _ \/ _ |- _ => destruct H
           | H : exists _, _ |- _ => destruct H
           | H : _ /\ _ |- _ => destruct H
           | H : points _ _ |- _ => inversion H; subst; clear H
           end; subst; inversion I; subst; inversion I'; subst; congruence.
Qed.
Lemma through_struct : forall p t a b, through p t (TStruct a) -> through p t (TStruct b) -> a = b.
Proof.
  intros p t a b T T'. destruct p; destruct T as [T|T]; destruct T' as [T'|T']; subst;
    repeat match goal with
           | H : _ \/ _ |- _ => destruct H
           | H : exists _, _ |- _ => destruct H
           | H : _ /\ _ |- _ => destruct H
           | H : points _ _ |- _ => inversion H; subst; clear H
           end; subst; congruence.
Qed.
Lemma through_str : forall p t c e, through p t TStr -> through p t c -> item c e -> False.
Proof.
  intros p t c e T T' I. destruct p; destruct T as [T|T]; destruct T' as [T'|T']; subst;
    repeat match goal with
           | H : _ \/ _ |- _ => destruct H
           | H : exists _, _ |- _ => destruct H
           | H : _ /\ _ |- _ => destruct H
           | H : points _ _ |- _ => inversion H; subst; clear H
           end; subst; inversion I; subst; congruence.
Qed.
Lemma den_fun : forall d p u, den d p u -> forall p' u', den d p' u' -> p = p' /\ u = u'.
Proof.
  intros d p u D. induction D as [t H O|t O|t O N|t O N|t O N|d p t b D IH P B1 B2|d p t c e D IH T I|d p t D IH T|d p t fs i e D IH T N|d p t r D IH T O N|d p t c r D IH T F];
    intros p' u' D'; inversion D'; subst; try (split; reflexivity);
    match goal with X : den d _ _ |- _ => destruct (IH _ _ X); subst end.
  - split; [reflexivity|]. match goal with X : points _ u' |- _ => destruct P; inversion X; reflexivity end.
  - split; [reflexivity|]. match goal with X : through _ _ ?b, Y : item ?b u' |- _ => exact (through_item _ _ _ _ _ _ T I X Y) end.
  - exfalso. match goal with X : through _ _ TStr |- _ => exact (through_str _ _ _ _ X T I) end.
  - exfalso. match goal with X : through _ _ ?b, Y : item ?b u' |- _ => exact (through_str _ _ _ _ T X Y) end.
  - split; [reflexivity|]. match goal with X : through _ _ (TStruct ?b) |- _ => assert_fails (constr_eq b fs); pose proof (through_struct _ _ _ _ T X); subst b end. congruence.
  - split; [reflexivity|]. match goal with X : through _ _ ?b, Y : fn ?b u' |- _ => exact (through_fn _ _ _ _ _ _ T F X Y) end.
Qed.

(** ** What is denoted is accepted *)
Lemma deref_some : forall f p u b, rep f p u -> points u b -> b <> TVoid -> b <> TNull -> exists g, derefSel f = Some g.
Proof.
  intros f p u b (O & R) P B1 B2. unfold derefSel. exists (MkF (TPtr b) true false false). destruct p.
  - destruct R as (_ & V & _ & _ & [T|[S T]]); rewrite V, T; destruct P; try discriminate; destruct b; congruence.
  - destruct R as (T & S). rewrite T. destruct P; (destruct (f_var f); [specialize (S eq_refl); discriminate|]); destruct b; congruence.
Qed.
Lemma look_back : forall f p u c, rep f p u -> through p u c -> (forall b, c <> TPtr b) -> (forall b, c <> TWeak b) ->
  implicitDeref (f_ty f) = TPtr c \/ implicitDeref (f_ty f) = c.
Proof.
  intros f p u c (O & R) T N1 N2. destruct p.
  - destruct R as (_ & _ & _ & _ & [->|[S ->]]); destruct T as [->|T].
    + left. destruct u; try reflexivity; [exfalso; exact (N1 _ eq_refl) | exfalso; exact (N2 _ eq_refl)].
    + left. destruct T; reflexivity.
    + right. destruct u; try discriminate; reflexivity.
    + destruct T; discriminate.
  - destruct R as (-> & _). destruct T as [->|[->|[q [-> P]]]].
    + right. destruct u; try reflexivity. exfalso. exact (N1 _ eq_refl).
    + left. destruct c; try reflexivity; [exfalso; exact (N1 _ eq_refl) | exfalso; exact (N2 _ eq_refl)].
    + left. destruct P; reflexivity.
Qed.
Lemma index_some : forall f p u c, rep f p u -> through p u c -> c = TStr \/ (exists e, item c e) -> exists g, indexSel f = Some g.
Proof.
  intros f p u c R T I. unfold indexSel.
  assert (X : implicitDeref (f_ty f) = TPtr c \/ implicitDeref (f_ty f) = c)
    by (apply (look_back f p u c R T); intros b ->; destruct I as [I|[e I]]; [discriminate | inversion I | discriminate | inversion I]).
  destruct I as [->|[e I]]; [|destruct I]; destruct X as [-> | ->]; eexists; reflexivity.
Qed.
Lemma field_some : forall f p u fs i e, rep f p u -> through p u (TStruct fs) -> nth_error fs i = Some e -> exists g, fieldSel f i = Some g.
Proof.
  intros f p u fs i e R T N. unfold fieldSel, selected.
  assert (X : implicitDeref (f_ty f) = TPtr (TStruct fs) \/ implicitDeref (f_ty f) = TStruct fs)
    by (apply (look_back f p u _ R T); discriminate).
  destruct X as [-> | ->]; cbn [structured]; rewrite N; eexists; reflexivity.
Qed.
Lemma call_some : forall f p u c r, rep f p u -> through p u c -> fn c r -> exists g, callSel f = Some g.
Proof.
  intros f p u c r R T I. unfold callSel.
  assert (X : implicitDeref (f_ty f) = TPtr c \/ implicitDeref (f_ty f) = c)
    by (apply (look_back f p u c R T); intros b ->; inversion I).
  destruct I; destruct X as [-> | ->]; eexists; reflexivity.
Qed.
Lemma method_some : forall f p u r, rep f p u -> receiver p u -> exists g, methodSel f r = Some g.
Proof.
  intros f p u r (O & R) V. unfold methodSel, selected.
  assert (X : (exists q, f_ty f = TPtr q) \/ structured (f_ty f) = true).
  { destruct p.
    - destruct R as (_ & _ & _ & _ & [->|[S ->]]); [left; eexists; reflexivity | right; exact S].
    - destruct R as (-> & _). destruct V as [V|[V|V]]; [discriminate | right; apply structured_iff; exact V | left; exact V]. }
  destruct X as [[q ->]|X]; [destruct q; eexists; reflexivity|].
  destruct (f_ty f); try discriminate; eexists; reflexivity.
Qed.

Lemma den_written : forall d p u, den d p u -> written d.
Proof. induction 1; cbn [written]; auto. Qed.
Lemma den_some : forall d p u, den d p u -> exists f, designator d = Some f.
Proof.
  induction 1 as [t H O|t O|t O N|t O N|t O N|d p t b D IH P B1 B2|d p t c e D IH T I|d p t D IH T|d p t fs i e D IH T N|d p t r D IH T O N|d p t c r D IH T F];
    cbn [designator]; try (eexists; reflexivity);
    destruct IH as [f E]; rewrite E; destruct (designator_good d f (den_written d p t D) E) as (p' & t' & D' & R);
    destruct (den_fun d p t D p' t' D'); subst p' t'.
  - exact (deref_some f p t b R P B1 B2).
  - exact (index_some f p t c R T (or_intror (ex_intro _ e I))).
  - exact (index_some f p t TStr R T (or_introl eq_refl)).
  - exact (field_some f p t fs i e R T N).
  - exact (method_some f p t r R T).
  - exact (call_some f p t c r R T F).
Qed.

(** ** Statements *)
Lemma call_flag : forall d f, designator d = Some f -> (f_call f = true <-> isCall d).
Proof.
  intros d f H. destruct d as [h|d s]; cbn [designator] in H.
  - injection H as <-. destruct h; cbn [headFlags f_call]; (split; [intros X; try discriminate | intros [[d' X]|[t' X]]; try discriminate]).
    + right. eexists. reflexivity.
    + reflexivity.
  - destruct (designator d) as [g|]; [|discriminate]. destruct s as [| |i|r|].
    5:{ split; [intros _; left; eexists; reflexivity|]. intros _. unfold callSel in H.
        destruct (match implicitDeref (f_ty g) with TPtr (TFn r) => TFn r | TPtr (TClo r) => TClo r | t => t end); try discriminate; injection H as <-; reflexivity. }
    all: assert (E : f_call f = false);
      [| rewrite E; split; [discriminate | intros [[d' X]|[t' X]]; discriminate]].
    + unfold derefSel in H. destruct (if f_var g then _ else _) as [t|]; [|discriminate].
      destruct t as [| | | | | |b|b| | | | | |]; try discriminate; destruct b; try discriminate; injection H as <-; reflexivity.
    + unfold indexSel in H.
      destruct (match implicitDeref (f_ty g) with TPtr (TArr e) => TArr e | TPtr (TDyn e) => TDyn e | TPtr (TMap e) => TMap e | TPtr TStr => TStr | t => t end);
        try discriminate; injection H as <-; reflexivity.
    + unfold fieldSel in H. destruct (selected (f_ty g)) as [c|]; [|discriminate]. destruct c as [| | | | | | | | | | |fs| |]; try discriminate.
      destruct (nth_error fs i); [|discriminate]. injection H as <-. reflexivity.
    + unfold methodSel in H. destruct (selected (f_ty g)); [|discriminate]. injection H as <-. reflexivity.
Qed.

(** A value is taken for a variable only if it is a cast. *)
Lemma value_var : forall d f u, den d false u -> rep f false u -> designator d = Some f ->
  (f_var f = true /\ f_call f = false /\ f_lit f = false) <-> isCast d.
Proof.
  intros d f u D R H. split.
  - intros (V & C & L). destruct R as (_ & _ & R). specialize (R V). destruct d as [h|d s].
    + cbn [designator] in H. injection H as <-. destruct h as [t|t|t|t|t]; cbn in V, C, L; try discriminate; [inversion D|]. exists t. split; [reflexivity | apply structured_iff; exact V].
    + exfalso. inversion D; subst; try discriminate.
      assert (X : f_call f = true) by (apply (call_flag (DSel d SCall) f H); left; eexists; reflexivity). congruence.
  - intros (t & -> & S). apply structured_iff in S. cbn [designator] in H. injection H as <-. cbn. rewrite S. repeat split.
Qed.

Lemma not_fn_ptr : forall r, ~ ok (TPtr (TFn r)).
Proof. intros r H. inversion H as [? HI|? ? N| | | | | | |]; subst; [cbn in HI; intuition discriminate | exact (N r eq_refl)]. Qed.

Lemma method_iff : forall d, isMethod d = true <-> uncalled d.
Proof.
  intros d. split.
  - destruct d as [h|d s]; [discriminate|]. destruct s as [| |i|r|]; try discriminate. intros _. exists d, r. reflexivity.
  - intros (d' & r & ->). reflexivity.
Qed.
Lemma method_value : forall d p u, uncalled d -> den d p u -> p = false /\ exists r, u = TFn r.
Proof. intros d p u (d' & r & ->) D. inversion D; subst. split; [reflexivity | eexists; reflexivity]. Qed.

Lemma parse_spec : forall d, written d ->
  match designator d with
  | None => parse d = None
  | Some f => exists p u, den d p u /\ rep f p u /\
      parse d = (if isMethod d then None else Some (MkF (if p then f_ty f else stored (f_ty f)) (f_var f) (f_call f) (f_lit f)))
  end.
Proof.
  intros d W. unfold parse. destruct (designator d) as [f|] eqn:H; [|reflexivity].
  destruct (designator_good d f W H) as (p & u & D & R). exists p, u. split; [exact D|]. split; [exact R|].
  destruct (isMethod d) eqn:M.
  - destruct (method_value d p u (proj1 (method_iff d) M) D) as [-> [r ->]]. destruct R as (_ & -> & _). reflexivity.
  - destruct f as [t v c l]. destruct R as (O & R). destruct p; cbn [f_ty f_var f_call f_lit] in *.
    + destruct R as ((_ & N) & _ & _ & _ & [->|[S ->]]).
      * destruct u; try reflexivity. exfalso. exact (N u eq_refl).
      * destruct u; try discriminate; reflexivity.
    + destruct R as (-> & _). destruct u as [| | | | | |b| | | | | | |]; try reflexivity.
      destruct b; try reflexivity. exfalso. exact (not_fn_ptr _ O).
Qed.

Lemma statements : forall d f, written d -> parse d = Some f ->
  exists p u, den d p u /\
    (forall v, assign f = Some v <-> v = u /\ (p = true \/ isCast d)) /\
    (incDec f = true <-> (p = true /\ u = TInt) \/ (p = false /\ u = TPtr TInt)) /\
    (callStmt f = true <-> isCall d).
Proof.
  intros d f W H. pose proof (parse_spec d W) as S. destruct (designator d) as [g|] eqn:G; [|congruence].
  destruct S as (p & u & D & R & E). rewrite E in H. destruct (isMethod d); [discriminate|]. injection H as <-. exists p, u. split; [exact D|].
  split; [|split; [|exact (call_flag d g G)]].
  - intros v. pose proof R as (O & Q). unfold assign. cbn [f_ty f_var f_call f_lit]. destruct p.
    + destruct Q as ((N1 & N2) & -> & -> & -> & T). cbn [negb orb].
      assert (X : leftType (f_ty g) = Some u).
      { destruct T as [->|[S ->]]; unfold leftType; [cbn [structured]; destruct u; congruence | rewrite S; reflexivity]. }
      rewrite X. split; [intros Y; injection Y as <-; auto | intros [-> _]; reflexivity].
    + pose proof (value_var d g u D R G) as V. destruct Q as (T & S). rewrite T.
      destruct (f_var g) eqn:V1; [|split; [discriminate | intros [_ [X|X]]; [discriminate | apply V in X; intuition discriminate]]].
      destruct (f_call g); [split; [discriminate | intros [_ [X|X]]; [discriminate | apply V in X; intuition discriminate]]|].
      destruct (f_lit g); [split; [discriminate | intros [_ [X|X]]; [discriminate | apply V in X; intuition discriminate]]|].
      specialize (S eq_refl). cbn [negb orb].
      assert (X : leftType (stored u) = Some u) by (destruct u; try discriminate; reflexivity).
      rewrite X. split; [intros Y; injection Y as <-; split; [reflexivity | right; apply V; auto] | intros [-> _]; reflexivity].
  - destruct R as (O & Q). unfold incDec. cbn [f_ty]. destruct p.
    + destruct Q as ((N1 & N2) & _ & _ & _ & T).
      assert (X : leftType (f_ty g) = Some u).
      { destruct T as [->|[S ->]]; unfold leftType; [cbn [structured]; destruct u; congruence | rewrite S; reflexivity]. }
      rewrite X. split; [destruct u; try discriminate; auto | intros [[_ ->]|[Y _]]; [reflexivity | discriminate]].
    + destruct Q as (T & _). rewrite T. split.
      * intros Y. right. split; [reflexivity|]. destruct u as [| | | | | |b| | | | | | |]; try discriminate. destruct b; try discriminate. reflexivity.
      * intros [[Y _]|[_ ->]]; [discriminate | reflexivity].
Qed.


Lemma parse_iff : forall d, written d -> ((exists f, parse d = Some f) <-> (exists p u, den d p u) /\ ~ uncalled d).
Proof.
  intros d W. pose proof (parse_spec d W) as S. split.
  - intros [f H]. destruct (designator d); [|congruence]. destruct S as (p & u & D & _ & S). split; [exists p, u; exact D|].
    intros M. apply method_iff in M. rewrite M in S. congruence.
  - intros ((p & u & D) & N). destruct (den_some d p u D) as [f E]. rewrite E in S. destruct S as (p' & u' & _ & _ & S).
    destruct (isMethod d) eqn:M; [exfalso; apply N; apply method_iff; exact M|]. eexists. exact S.
Qed.

Lemma statements_of : forall d p u f, den d p u -> parse d = Some f ->
    (forall v, assign f = Some v <-> v = u /\ (p = true \/ isCast d)) /\
    (incDec f = true <-> (p = true /\ u = TInt) \/ (p = false /\ u = TPtr TInt)) /\
    (callStmt f = true <-> isCall d).
Proof.
  intros d p u f D H. destruct (statements d f (den_written d p u D) H) as (p' & u' & D' & S).
  destruct (den_fun d p u D p' u' D'); subst p' u'. exact S.
Qed.

Lemma list_iff : forall l ts, Forall written l ->
  (assignList l = Some ts <-> Forall2 (fun d t => exists p, den d p t /\ (p = true \/ isCast d)) l ts).
Proof.
  induction l as [|d r IH]; intros ts W; cbn [assignList].
  - split; [intros H; injection H as <-; constructor | intros H; inversion H; reflexivity].
  - inversion W as [|? ? W1 W2]; subst. split.
    + intros H. destruct (parse d) as [f|] eqn:P; [|discriminate]. destruct (assign f) as [t|] eqn:A; [|discriminate].
      destruct (assignList r) as [ts'|] eqn:L; [|discriminate]. injection H as <-.
      destruct (statements d f W1 P) as (p & u & D & X & _). apply X in A. destruct A as [-> A].
      constructor; [exists p; split; assumption | apply (IH ts' W2); reflexivity].
    + intros H. inversion H as [|? t ? ts' (p & D & A) F]; subst. apply (IH ts' W2) in F.
      assert (N : ~ uncalled d).
      { intros M. destruct (method_value d p t M D) as [-> _]. destruct A as [A|(c & -> & _)]; [discriminate|]. destruct M as (? & ? & M). discriminate. }
      destruct (proj2 (parse_iff d W1) (conj (ex_intro _ p (ex_intro _ t D)) N)) as [f P]. rewrite P.
      rewrite (proj2 (proj1 (statements_of d p t f D P) t) (conj eq_refl A)), F. reflexivity.
Qed.

Lemma factor_type : forall d p u f, den d p u -> parse d = Some f -> factorType f = stored u.
Proof.
  intros d p u f D H. pose proof (parse_spec d (den_written d p u D)) as S. destruct (designator d) as [g|]; [|congruence].
  destruct S as (p' & u' & D' & (O & R) & E). destruct (den_fun d p u D p' u' D'); subst p' u'. rewrite E in H.
  destruct (isMethod d); [discriminate|]. injection H as <-. unfold factorType. cbn [f_ty f_var]. destruct p.
  - destruct R as ((_ & N) & -> & _ & _ & [->|[S ->]]).
    + cbn [structured]. destruct u; try reflexivity. exfalso. exact (N u eq_refl).
    + rewrite S. destruct u; try discriminate; reflexivity.
  - destruct R as (-> & S). destruct (f_var g); [|reflexivity]. specialize (S eq_refl). destruct u; try discriminate; reflexivity.
Qed.

(** Source semantics: values, names and states. *)
From Coq Require Import ZArith Lia Bool List.
From Verif Require Import Base TempModel TempSpec TempBase TempScope TempExpr SourceSpec.
Import ListNotations.
Local Open Scope Z_scope.

(** Objects keep their contents. *)
Definition mono (s s' : st) : Prop := (onext s <= onext s')%nat /\ forall o, (o < onext s)%nat -> ostr s' o = ostr s o.
Definition grel (s : st) (G : list sval) : Prop := Forall2 (denotes s) (globs s) G.
Definition nm (i : ident) : list (nat * nat) := match iname i with Some x => [(x, islot i)] | None => [] end.
Definition names (c : cst) : list (nat * nat) := flat_map nm (idents c).
Definition erel (l : list (nat * nat)) (s : st) (e : env) : Prop := Forall2 (fun p b => fst p = fst b /\ denotes s (slots s (snd p)) (snd b)) l e.
(** States that differ in counts only. *)
Definition same (s s' : st) : Prop := stk s' = stk s /\ slots s' = slots s /\ globs s' = globs s /\ ostr s' = ostr s /\ onext s' = onext s /\ res s' = res s.

Lemma mono_refl : forall s, mono s s. Proof. split; auto. Qed.
Lemma mono_trans : forall a b c, mono a b -> mono b c -> mono a c.
Proof. intros a b c (A & B) (C & D). split; [lia|]. intros o H. rewrite D, B; auto. lia. Qed.
Lemma denotes_mono : forall s s' v x, mono s s' -> denotes s v x -> denotes s' v x.
Proof. intros s s' [z|[o|]] [y|l] (A & B); cbn; auto. intros (C & D). split; [lia|]. rewrite B; auto. Qed.
Lemma denotes_eq : forall s s' v x, ostr s' = ostr s -> onext s' = onext s -> denotes s v x -> denotes s' v x.
Proof. intros s s' [z|[o|]] [y|l] A B; cbn; auto. rewrite A, B. auto. Qed.
Lemma same_mono : forall s s', same s s' -> mono s s'. Proof. intros s s' (A & B & C & D & E & F). split; [lia|]. intros. congruence. Qed.
Lemma same_refl : forall s, same s s. Proof. repeat split. Qed.
Lemma same_trans : forall a b c, same a b -> same b c -> same a c. Proof. unfold same. intros a b c (?&?&?&?&?&?) (?&?&?&?&?&?). repeat split; congruence. Qed.
Lemma grel_mono : forall s s' G, mono s s' -> globs s' = globs s -> grel s G -> grel s' G.
Proof. unfold grel. intros s s' G M E H. rewrite E. clear E. induction H; constructor; auto. eapply denotes_mono; eauto. Qed.
Lemma erel_mono : forall l s s' e, mono s s' -> (forall p, In p l -> slots s' (snd p) = slots s (snd p)) -> erel l s e -> erel l s' e.
Proof. unfold erel. intros l s s' e M E H. induction H; constructor; auto. - destruct H. split; auto. rewrite E by (left; auto). eapply denotes_mono; eauto. - apply IHForall2. intros. apply E. right. auto. Qed.
Lemma erel_same : forall l s s' e, same s s' -> erel l s e -> erel l s' e.
Proof. intros l s s' e S H. eapply erel_mono; [apply same_mono; eauto| |exact H]. intros. destruct S as (_ & -> & _). reflexivity. Qed.
Lemma grel_same : forall s s' G, same s s' -> grel s G -> grel s' G.
Proof. intros s s' G S H. eapply grel_mono; [apply same_mono; eauto| |exact H]. apply S. Qed.
Lemma names_lt : forall c p, wfc c -> In p (names c) -> (snd p < cnext c)%nat.
Proof. intros c p (_ & _ & W) H. apply in_flat_map in H as (i & I & H). unfold nm in H. destruct (iname i); [|destruct H]. destruct H as [<- |[]]. cbn. apply W. exact I. Qed.
Lemma erel_frame : forall c s s' e, wfc c -> mono s s' -> frame (cnext c) s s' -> erel (names c) s e -> erel (names c) s' e.
Proof. intros c s s' e W M F H. eapply erel_mono; eauto. intros p P. apply F. apply names_lt; auto. Qed.

(** Names. *)
Lemma names_unuse : forall t c, names (unuse t c) = names c.
Proof.
  intros t c. unfold names, idents, unuse. cbn. destruct (cblks c) as [|b l]; auto. cbn. rewrite !flat_map_app. f_equal.
  induction b as [|i b IHb]; auto. change (flat_map nm (unuseIn t (i :: b))) with (nm (if Nat.eqb (islot i) t then Id (iname i) (islot i) (igc i) false else i) ++ flat_map nm (unuseIn t b)). cbn [flat_map]. rewrite IHb. f_equal. unfold nm. destruct (Nat.eqb _ _); reflexivity.
Qed.
Lemma names_enter : forall c, names (enter c) = names c. Proof. reflexivity. Qed.
Lemma names_alloc : forall x gc c n c', allocVar x gc c = Ok (n, c') -> wfc c -> names c' = match x with Some y => [(y, n)] | None => [] end ++ names c.
Proof. intros x gc c n c' E W. destruct (alloc_facts _ _ _ _ _ E W) as (_ & _ & _ & _ & _ & X). unfold names. rewrite X. cbn [flat_map]. unfold nm at 1. cbn. destruct x; reflexivity. Qed.
Lemma names_leave : forall c c', ext (enter c) c' -> names (leave c') = names c.
Proof. intros c c' E. destruct (ext_enter _ _ E) as (A & _). unfold names, idents, leave. cbn. rewrite A. reflexivity. Qed.
Lemma names_ext : forall c c', ext c c' -> exists new, names c' = new ++ names c.
Proof.
  intros c c' (n & b & l & A & B & _). unfold names, idents. rewrite A, B. cbn. rewrite <- app_assoc, flat_map_app. eauto.
Qed.
Lemma names_nodup : forall c, wfc c -> NoDup (map snd (names c)).
Proof.
  intros c (_ & N & _). unfold names. induction (idents c) as [|i l]; [constructor|]. cbn in *. inversion N; subst. unfold nm at 1. destruct (iname i); cbn; auto. constructor; auto.
  intros H. apply in_map_iff in H as (p & E & H). apply in_flat_map in H as (j & J & H). unfold nm in H. destruct (iname j); [|destruct H]. destruct H as [<- |[]]. cbn in E. apply H1. rewrite <- E. apply in_map. exact J.
Qed.
Section Names.
Variable gty : list bool.
Variable sigs : list (list bool * option bool).
Lemma names_expr : (forall e c r c', cexpr gty sigs e c = Ok (r, c') -> wfc c -> names c' = names c) /\ (forall a ps c p c', cargs gty sigs a ps c = Ok (p, c') -> wfc c -> names c' = names c).
Proof.
  assert (Al : forall c n c', allocVar None true c = Ok (n, c') -> wfc c -> names c' = names c) by (intros c n c' E W; rewrite (names_alloc _ _ _ _ _ E W); reflexivity).
  Ltac inv1 H := match type of H with bind ?x _ = _ => let E := fresh "E" in destruct x as [[? ?]| | ] eqn:E; cbn [bind] in H; try discriminate H end.
  apply expr_args_ind; cbn [cexpr cargs].
  - intros z c r c' H W. injection H as <- <-. reflexivity.
  - intros c r c' H W. injection H as <- <-. reflexivity.
  - intros x c r c' H W. destruct (lookup _ _); [|discriminate]. injection H as <- <-. reflexivity.
  - intros x c r c' H W. destruct (nth_error _ _); [|discriminate]. injection H as <- <-. reflexivity.
  - intros f a IH c r c' H W. destruct (nth_error sigs f) as [[ps [gc|]]|]; try discriminate. inv1 H. destruct (argsFacts _ _ _ _ _ _ _ E W) as (A & _).
    apply IH in E; auto. destruct gc; [|injection H as <- <-; auto]. inv1 H. injection H as <- <-. rewrite (Al _ _ _ E0 A). exact E.
  - intros z c r c' H W. inv1 H. injection H as <- <-. eauto.
  - intros e IH c r c' H W. inv1 H. destruct (egc e0); [|discriminate]. injection H as <- <-. eauto.
  - intros a IHa b IHb c r c' H W. inv1 H. inv1 H. destruct (egc _ && egc _); [|discriminate]. inv1 H. injection H as <- <-.
    destruct (exprFacts _ _ _ _ _ _ E W) as (A & _). destruct (exprFacts _ _ _ _ _ _ E0 A) as (B & _). rewrite (Al _ _ _ E1 B), (IHb _ _ _ E0 A). eauto.
  - intros a IHa b IHb c r c' H W. inv1 H. inv1 H. destruct (egc _ || egc _); [discriminate|]. injection H as <- <-.
    destruct (exprFacts _ _ _ _ _ _ E W) as (A & _). rewrite (IHb _ _ _ E0 A). eauto.
  - intros a IHa b IHb c r c' H W. inv1 H. inv1 H. destruct (egc _ || egc _); [discriminate|]. injection H as <- <-.
    destruct (exprFacts _ _ _ _ _ _ E W) as (A & _). destruct (exprFacts _ _ _ _ _ _ E0 (wfc_enter _ A)) as (_ & B & _). rewrite (names_leave _ _ B). eauto.
  - intros a IHa b IHb c r c' H W. inv1 H. inv1 H. destruct (egc _ || egc _); [discriminate|]. injection H as <- <-.
    destruct (exprFacts _ _ _ _ _ _ E W) as (A & _). destruct (exprFacts _ _ _ _ _ _ E0 (wfc_enter _ A)) as (_ & B & _). rewrite (names_leave _ _ B). eauto.
  - intros q IHq a IHa b IHb c r c' H W. inv1 H. destruct (egc e); [discriminate|]. inv1 H. destruct (exprFacts _ _ _ _ _ _ E W) as (A & _).
    destruct (exprFacts _ _ _ _ _ _ E0 (wfc_enter _ A)) as (B1 & B2 & _). destruct (wfc_leave _ _ B2 A B1) as (C1 & _). destruct (egc e0).
    + inv1 H. inv1 H. destruct (egc e1); [|discriminate]. injection H as <- <-. destruct (alloc_facts _ _ _ _ _ E1 C1) as (_ & _ & _ & P & _).
      destruct (exprFacts _ _ _ _ _ _ E2 (wfc_enter _ P)) as (_ & D & _). rewrite (names_leave _ _ D), (Al _ _ _ E1 C1), (names_leave _ _ B2). eauto.
    + inv1 H. destruct (egc e1); [discriminate|]. injection H as <- <-. destruct (exprFacts _ _ _ _ _ _ E1 (wfc_enter _ C1)) as (_ & D & _).
      rewrite (names_leave _ _ D), (names_leave _ _ B2). eauto.
  - intros [|p ps] c q c' H W; [|discriminate]. injection H as <- <-. reflexivity.
  - intros e IHe a IHa [|p ps] c q c' H W; [discriminate|]. inv1 H. destruct (eqb _ _); [|discriminate]. destruct (exprFacts _ _ _ _ _ _ E W) as (A1 & A2 & A3).
    destruct (own_facts c c0 e0 W A1 A2 A3) as (B1 & _). assert (X : names (snd (own e0 c0)) = names c0) by (unfold own; destruct (etmp e0); cbn; auto; apply names_unuse).
    destruct (own e0 c0) as [k c1]. cbn in *. inv1 H. injection H as <- <-. rewrite (IHa _ _ _ _ E0 B1), X. eauto.
Qed.
Lemma names_own : forall r c, names (snd (own r c)) = names c. Proof. intros. unfold own. destruct (etmp r); cbn; auto. apply names_unuse. Qed.
End Names.

(** Lookup and update. *)
Lemma lookup_names : forall x l i, lookup x l = Some i -> exists a b, flat_map nm l = a ++ (x, islot i) :: b /\ forall p, In p a -> fst p <> x.
Proof.
  induction l as [|j l]; intros i H; [discriminate|]. cbn [lookup] in H. destruct (sameName (Some x) j) eqn:Q.
  - injection H as <-. unfold sameName in Q. exists [], (flat_map nm l). cbn. unfold nm at 1. destruct (iname j); [|discriminate]. apply Nat.eqb_eq in Q. subst. split; auto.
  - destruct (IHl _ H) as (a & b & A & B). cbn. rewrite A. unfold nm. unfold sameName in Q. destruct (iname j) as [y|]; [|exists a, b; auto].
    exists ((y, islot j) :: a), b. split; auto. intros p [<- |P]; auto. cbn. apply Nat.eqb_neq in Q. auto.
Qed.
Lemma erel_get : forall a x n b s e, erel (a ++ (x, n) :: b) s e -> (forall p, In p a -> fst p <> x) -> exists v, get x e = Some v /\ denotes s (slots s n) v.
Proof.
  induction a as [|[y m] a]; intros x n b s e H N; inversion H as [|? [z v] ? e1 [E D] T]; subst; cbn in E, D; subst.
  - exists v. cbn. rewrite Nat.eqb_refl. auto.
  - destruct (IHa _ _ _ _ _ T) as (w & A & B). { intros p P. apply N. right. auto. } exists w. split; auto. cbn.
    destruct (Nat.eqb_spec x z); auto. subst. destruct (N (z, m) (or_introl eq_refl)). reflexivity.
Qed.
Lemma erel_put : forall a x n b s s' e v, erel (a ++ (x, n) :: b) s e -> (forall p, In p a -> fst p <> x) -> NoDup (map snd (a ++ (x, n) :: b)) ->
  mono s s' -> (forall k, k <> n -> slots s' k = slots s k) -> denotes s' (slots s' n) v -> erel (a ++ (x, n) :: b) s' (put x v e).
Proof.
  induction a as [|[y m] a]; intros x n b s s' e v H N U M F D; inversion H as [|? [z w] ? e1 [E D1] T]; subst; cbn in E, D1; subst; cbn in U; inversion U; subst.
  - cbn. rewrite Nat.eqb_refl. constructor; auto. eapply erel_mono; eauto. intros p P. apply F. intros Q. rewrite <- Q in H2. apply H2. apply in_map. exact P.
  - cbn. destruct (Nat.eqb_spec x z). { subst. destruct (N (z, m) (or_introl eq_refl)). reflexivity. }
    constructor.
    + cbn. split; auto. rewrite F. { eapply denotes_mono; eauto. } intros Q. subst. apply H2. rewrite map_app. apply in_app_iff. right. left. reflexivity.
    + eapply IHa; eauto. intros p P. apply N. right. auto.
Qed.
Lemma put_length : forall x v e, length (put x v e) = length e. Proof. induction e as [|[]]; auto. cbn. destruct (Nat.eqb _ _); cbn; auto. Qed.

(** Blocks. *)
Lemma erel_length : forall l s e, erel l s e -> length e = length l. Proof. intros l s e H. induction H; cbn; auto. Qed.
Lemma erel_back : forall new l s e e', erel (new ++ l) s e' -> length e = length l -> erel l s (back e e').
Proof.
  intros new l s e e' H L. pose proof (erel_length _ _ _ H) as L'. rewrite app_length in L'. unfold back. replace (length e' - length e)%nat with (length new) by lia. clear L L'.
  revert e' H. induction new; intros e' H; [exact H|]. inversion H; subst. cbn. auto.
Qed.
Lemma back_self : forall e, back e e = e. Proof. intros. unfold back. rewrite Nat.sub_diag. reflexivity. Qed.
Lemma skipn_skipn' : forall A m n (l : list A), skipn n (skipn m l) = skipn (m + n) l.
Proof. induction m; intros n [|x l]; cbn; auto. destruct n; reflexivity. Qed.
Lemma back_back : forall e e1 e', (length e <= length e1)%nat -> (length e1 <= length e')%nat -> back e (back e1 e') = back e e'.
Proof. intros. unfold back. rewrite skipn_length, skipn_skipn'. f_equal. lia. Qed.
Lemma back_length : forall e e', (length e <= length e')%nat -> length (back e e') = length e. Proof. intros. unfold back. rewrite skipn_length. lia. Qed.
Lemma back_len : forall e1 e2 e', length e1 = length e2 -> back e1 e' = back e2 e'. Proof. intros. unfold back. rewrite H. reflexivity. Qed.

Lemma grel_nth : forall s G g v, grel s G -> nth_error (globs s) g = Some v -> exists x, nth_error G g = Some x /\ denotes s v x.
Proof. unfold grel. intros s G g v H. revert g. induction H; intros [|g] E; try discriminate; cbn in *; eauto. injection E as <-. eauto. Qed.
Lemma grel_put : forall s G g v x, grel s G -> denotes s v x -> Forall2 (denotes s) (replace (globs s) g v) (putNth G g x).
Proof. unfold grel. intros s G g v x H D. revert g. induction H; intros [|g]; cbn; constructor; auto. Qed.
Lemma grel_length : forall s G, grel s G -> length G = length (globs s). Proof. unfold grel. intros s G H. induction H; cbn; auto. Qed.

(** Steps. *)
Lemma incRef_same : forall v s s', incRef v s = Ok s' -> same s s'.
Proof. intros [z|[o|]] s s' H; cbn in H; try discriminate; [destruct (_ <? _); [|discriminate]|]; injection H as <-; repeat split. Qed.
Lemma decRef_same : forall v s s', decRef v s = Ok s' -> same s s'.
Proof. intros [z|[o|]] s s' H; cbn in H; try discriminate; [destruct (_ <? _); [|discriminate]|]; injection H as <-; repeat split. Qed.
Lemma textOf_denotes : forall v s t x, textOf v s = Ok t -> denotes s v x -> x = SS t.
Proof. intros [z|[o|]] s t [y|l] H D; cbn in *; try discriminate; try contradiction; [destruct (_ <? _); [|discriminate]; destruct D|]; congruence. Qed.
Lemma mono_new : forall s t, mono s (newObj s t).
Proof. split; cbn; [lia|]. intros o H. destruct (Nat.eqb_spec o (onext s)); [lia|auto]. Qed.

(** Temporaries: what the compiler keeps about identifiers. *)
From Coq Require Import ZArith Lia Bool List.
From Verif Require Import Base TempModel TempSpec TempBase.
Import ListNotations.
Local Open Scope nat_scope.

Definition idents (c : cst) : list ident := concat (cblks c).
Definition wfc (c : cst) : Prop :=
  cblks c <> [] /\ NoDup (map islot (idents c)) /\ forall i, In i (idents c) -> islot i < cnext c /\ (iname i <> None -> iused i = true).
Definition ext (c c' : cst) : Prop :=
  exists new b l, cblks c = b :: l /\ cblks c' = (new ++ b) :: l /\ (forall i, In i new -> cnext c <= islot i) /\ cnext c <= cnext c'.
Definition inD (D : list nat) (i : ident) : bool := existsb (Nat.eqb (islot i)) D.
Definition live (D : list nat) (c : cst) : list ident := filter (fun i => iused i && negb (inD D i)) (idents c).
Definition tmpOK (c c' : cst) (t : nat) : Prop := exists b, cblks c' = (Id None t true true :: b) :: tl (cblks c) /\ cnext c <= t /\ cnext c' = S t.
Definition dOK (D : list nat) (c : cst) : Prop := forall d, In d D -> d < cnext c /\ forall i, In i (idents c) -> islot i = d -> iname i = None.

Lemma ext_refl : forall c, wfc c -> ext c c.
Proof. intros c (N & _). destruct (cblks c) as [|b l] eqn:E; [contradiction|]. exists [], b, l. repeat split; auto. intros i []. Qed.
Lemma ext_trans : forall a b c, ext a b -> ext b c -> ext a c.
Proof.
  intros a b c (n & x & l & A & B & C & D) (n' & x' & l' & A' & B' & C' & D'). rewrite B in A'. injection A' as <- <-.
  exists (n' ++ n), x, l. rewrite <- app_assoc. repeat split; auto; [|lia]. intros i H. apply in_app_iff in H as [H|H]; auto. apply C' in H. lia.
Qed.
Lemma ext_next : forall a b, ext a b -> cnext a <= cnext b. Proof. intros a b (n & x & l & A & B & C & D). exact D. Qed.
Lemma ext_in : forall a b i, ext a b -> In i (idents b) -> In i (idents a) \/ cnext a <= islot i.
Proof.
  intros a b i (n & x & l & A & B & C & D) H. unfold idents in *. rewrite A. rewrite B in H. cbn in *. rewrite <- app_assoc in H. apply in_app_iff in H as [H|H]; auto.
Qed.
Lemma ext_old : forall a b i, ext a b -> In i (idents a) -> In i (idents b).
Proof.
  intros a b i (n & x & l & A & B & C & D) H. unfold idents in *. rewrite B. rewrite A in H. cbn in *. rewrite <- app_assoc. apply in_app_iff. auto.
Qed.
Lemma ext_len : forall a b, ext a b -> length (cblks b) = length (cblks a). Proof. intros a b (n & x & l & A & B & C & D). rewrite A, B. reflexivity. Qed.
Lemma ext_tl : forall a b, ext a b -> tl (cblks b) = tl (cblks a). Proof. intros a b (n & x & l & A & B & C & D). rewrite A, B. reflexivity. Qed.
Lemma dOK_ext : forall D a b, dOK D a -> ext a b -> dOK D b.
Proof.
  intros D a b H E d I. destruct (H d I) as (A & B). split; [apply ext_next in E; lia|]. intros i Hi Hd. destruct (ext_in _ _ _ E Hi); [auto|lia].
Qed.
Lemma dOK_nil : forall c, dOK [] c. Proof. intros c d []. Qed.
Lemma wfc_enter : forall c, wfc c -> wfc (enter c). Proof. intros c (A & B & C). repeat split; cbn; auto; try discriminate; apply C; auto. Qed.
Lemma enter_live : forall D c, live D (enter c) = live D c. Proof. reflexivity. Qed.
Lemma dOK_enter : forall D c, dOK D c -> dOK D (enter c). Proof. intros D c H. exact H. Qed.
Lemma ext_enter : forall c c', ext (enter c) c' -> cblks c' = top c' :: cblks c /\ (forall i, In i (top c') -> cnext c <= islot i) /\ cnext c <= cnext c'.
Proof. intros c c' (n & x & l & A & B & C & D). cbn in *. injection A as <- <-. rewrite app_nil_r in B. unfold top. rewrite B. cbn. auto. Qed.
Lemma NoDup_appR : forall A (a b : list A), NoDup (a ++ b) -> NoDup b.
Proof. induction a; intros b H; auto. inversion H; auto. Qed.
Lemma wfc_leave : forall c c', ext (enter c) c' -> wfc c -> wfc c' -> wfc (leave c') /\ ext c (leave c') /\ idents (leave c') = idents c.
Proof.
  intros c c' E W W'. destruct (ext_enter _ _ E) as (A & B & C). destruct W as (N1 & N2 & N3). destruct W' as (M1 & M2 & M3).
  assert (X : idents (leave c') = idents c). { unfold idents, leave. cbn. rewrite A. reflexivity. }
  split; [|split]; auto.
  - split; [unfold leave; cbn; rewrite A; auto|]. rewrite X. split; auto. intros i Hi. destruct (N3 i Hi). split; auto. unfold leave. cbn. lia.
  - destruct (cblks c) as [|b l] eqn:Q; [contradiction|]. exists [], b, l. unfold leave. cbn. rewrite A. repeat split; auto. intros i [].
Qed.
Lemma live_leave : forall D c c', ext (enter c) c' -> dOK D c -> live D c' = filter iused (top c') ++ live D c.
Proof.
  intros D c c' E H. destruct (ext_enter _ _ E) as (A & B & C). unfold live, idents. rewrite A. cbn [concat]. rewrite filter_app. f_equal.
  clear A. induction (top c') as [|i t]; auto. cbn [filter]. rewrite IHt by (intros; apply B; right; auto).
  replace (inD D i) with false; [rewrite andb_true_r; reflexivity|]. symmetry. unfold inD. destruct (existsb _ D) eqn:Q; auto. apply existsb_exists in Q as (d & Hd & Q).
  apply Nat.eqb_eq in Q. destruct (H d Hd). specialize (B i (or_introl eq_refl)). lia.
Qed.
Lemma live_leave_old : forall D c c', ext (enter c) c' -> live D (leave c') = live D c.
Proof. intros D c c' E. destruct (ext_enter _ _ E) as (A & _). unfold live, idents, leave. cbn. rewrite A. reflexivity. Qed.

Lemma alloc_facts : forall x gc c n c', allocVar x gc c = Ok (n, c') -> wfc c ->
  n = cnext c /\ cnext c' = S n /\ (exists b l, cblks c = b :: l /\ cblks c' = (Id x n gc true :: b) :: l) /\ wfc c' /\ ext c c' /\ idents c' = Id x n gc true :: idents c.
Proof.
  intros x gc c n c' E (A & B & C). unfold allocVar in E. destruct (cblks c) as [|b l] eqn:Q; [discriminate|]. destruct (existsb _ b); [discriminate|].
  injection E as <- <-. assert (X : idents (Cst (S (cnext c)) ((Id x (cnext c) gc true :: b) :: l)) = Id x (cnext c) gc true :: idents c) by (unfold idents; cbn; rewrite Q; reflexivity).
  split; auto. split; auto. split; [exists b, l; auto|]. split; [|split; auto].
  - split; [discriminate|]. rewrite X. cbn [map]. split.
    + constructor; auto. intros H. apply in_map_iff in H as (i & H & I). apply C in I. cbn in H. lia.
    + intros i [<- |I]; cbn; [split; [lia|auto]|]. destruct (C i I). split; [lia|auto].
  - exists [Id x (cnext c) gc true], b, l. cbn. repeat split; auto. intros i [<- |[]]. cbn. lia.
Qed.
Lemma live_alloc : forall D x gc c n c', allocVar x gc c = Ok (n, c') -> wfc c -> dOK D c -> live D c' = Id x n gc true :: live D c.
Proof.
  intros D x gc c n c' E W H. destruct (alloc_facts _ _ _ _ _ E W) as (-> & _ & _ & _ & _ & X). unfold live. rewrite X. cbn [filter iused].
  replace (inD D _) with false; auto. symmetry. unfold inD. cbn. destruct (existsb _ D) eqn:Q; auto. apply existsb_exists in Q as (d & Hd & Q). apply Nat.eqb_eq in Q. destruct (H d Hd). lia.
Qed.
Lemma live_alloc_dead : forall D x gc c n c', allocVar x gc c = Ok (n, c') -> wfc c -> live (n :: D) c' = live D c.
Proof.
  intros D x gc c n c' E W. destruct (alloc_facts _ _ _ _ _ E W) as (-> & _ & _ & _ & _ & X). unfold live. rewrite X. cbn [filter iused inD existsb islot].
  rewrite Nat.eqb_refl. cbn. apply filter_ext_in. intros i Hi. f_equal. unfold inD. cbn. destruct (Nat.eqb_spec (islot i) (cnext c)); auto.
  destruct W as (_ & _ & W). apply W in Hi. lia.
Qed.
Lemma alloc_tmp : forall c0 c n c', ext c0 c -> allocVar None true c = Ok (n, c') -> wfc c -> tmpOK c0 c' n.
Proof.
  intros c0 c n c' X E W. destruct (alloc_facts _ _ _ _ _ E W) as (-> & Y & (b & l & P & Q) & _). exists b. rewrite Q. rewrite <- (ext_tl _ _ X), P. cbn.
  repeat split; auto. apply ext_next in X. exact X.
Qed.

Definition atTop (t : nat) (c : cst) : Prop := In t (map islot (top c)).
Lemma NoDup_disj : forall A (a b : list A) x, NoDup (a ++ b) -> In x a -> In x b -> False.
Proof. induction a; intros b x N E I; [destruct E|destruct E as [E|E]]; inversion N as [|? ? P Q]; subst. - apply P. apply in_app_iff. auto. - eapply IHa; eauto. Qed.
Lemma unuse_live : forall D t c, wfc c -> atTop t c -> live D (unuse t c) = live (t :: D) c.
Proof.
  intros D t c (A & B & C) T. unfold live, idents, unuse, top, atTop in *. cbn. unfold top in T. destruct (cblks c) as [|b l] eqn:Q; [contradiction|]. cbn in *. rewrite !filter_app. f_equal.
  - clear -T. clear T. induction b as [|i b]; auto. cbn [unuseIn map filter]. cbn [inD existsb]. unfold inD at 2. cbn [existsb].
    destruct (Nat.eqb_spec (islot i) t).
    + cbn. rewrite andb_false_r. exact IHb.
    + cbn. unfold inD. destruct (iused i && negb (existsb (Nat.eqb (islot i)) D)); [f_equal|]; exact IHb.
  - apply filter_ext_in. intros i Hi. f_equal. unfold inD. cbn. destruct (Nat.eqb_spec (islot i) t); auto. subst t. exfalso.
    rewrite map_app in B. eapply NoDup_disj; [exact B|exact T|]. apply in_map. exact Hi.
Qed.
Lemma unuseIn_slots : forall t b, map islot (unuseIn t b) = map islot b.
Proof. intros. unfold unuseIn. rewrite map_map. apply map_ext. intros i. destruct (Nat.eqb _ _); reflexivity. Qed.
Lemma unuse_slots : forall t c, map islot (idents (unuse t c)) = map islot (idents c).
Proof. intros. unfold idents, unuse. cbn. destruct (cblks c); auto. cbn. rewrite !map_app, unuseIn_slots. reflexivity. Qed.
Lemma unuse_in : forall t c i, In i (idents (unuse t c)) -> In i (idents c) \/ exists j, In j (idents c) /\ islot j = t /\ i = Id (iname j) (islot j) (igc j) false.
Proof.
  intros t c i H. unfold idents, unuse in *. cbn in H. destruct (cblks c) as [|b l]; auto. cbn in *. apply in_app_iff in H as [H|H].
  - unfold unuseIn in H. apply in_map_iff in H as (j & E & I). destruct (Nat.eqb_spec (islot j) t).
    + right. exists j. rewrite in_app_iff. auto.
    + subst j. left. apply in_app_iff. auto.
  - left. apply in_app_iff. auto.
Qed.
Lemma unuse_wfc : forall t c, wfc c -> (forall i, In i (idents c) -> islot i = t -> iname i = None) -> wfc (unuse t c).
Proof.
  intros t c (A & B & C) H. split; [|split].
  - unfold unuse. cbn. destruct (cblks c); [auto|discriminate].
  - rewrite unuse_slots. exact B.
  - intros i I. cbn. apply unuse_in in I as [I|(j & I & E & ->)]; auto. destruct (C j I). cbn. rewrite (H j) by auto. split; [assumption|congruence].
Qed.
Lemma unuse_ext : forall t a c, wfc a -> ext a c -> cnext a <= t -> ext a (unuse t c).
Proof.
  intros t a c (W1 & W2 & W3) (n & x & l & A & B & C & D) H. exists (unuseIn t n), x, l. repeat split; auto.
  - unfold unuse. cbn. rewrite B. unfold unuseIn. rewrite map_app. f_equal. f_equal. rewrite <- (map_id x) at 2. apply map_ext_in. intros i Hi.
    destruct (Nat.eqb_spec (islot i) t); auto. assert (In i (idents a)) by (unfold idents; rewrite A; cbn; apply in_app_iff; auto). apply W3 in H0. lia.
  - intros i Hi. unfold unuseIn in Hi. apply in_map_iff in Hi as (j & E & I). apply C in I. destruct (Nat.eqb _ _); subst; auto.
Qed.
Lemma tmp_facts : forall a c t, tmpOK a c t -> wfc c -> atTop t c /\ (forall i, In i (idents c) -> islot i = t -> i = Id None t true true) /\ In (Id None t true true) (idents c) /\ ~ In t (map islot (live [t] c)).
Proof.
  intros a c t (b & A & B & E) (W1 & W2 & W3). assert (X : idents c = Id None t true true :: b ++ concat (tl (cblks a))) by (unfold idents; rewrite A; reflexivity). split; [|split; [|split]].
  - unfold atTop, top. rewrite A. left. reflexivity.
  - intros i I S. rewrite X in *. destruct I as [<- |I]; auto. cbn [map] in W2. inversion W2. exfalso. apply H1. cbn. rewrite <- S. apply in_map. exact I.
  - rewrite X. left. reflexivity.
  - intros H. apply in_map_iff in H as (i & S & H). apply filter_In in H as (_ & H). unfold inD in H. cbn in H. rewrite S, Nat.eqb_refl in H. cbn in H. rewrite andb_false_r in H. discriminate.
Qed.
Lemma lookup_in : forall x l i, lookup x l = Some i -> In i l /\ iname i = Some x.
Proof.
  induction l as [|j l]; intros i E; [discriminate|]. cbn [lookup] in E. destruct (sameName (Some x) j) eqn:Q.
  - injection E as <-. split; [left; auto|]. unfold sameName in Q. destruct (iname j); [|discriminate]. apply Nat.eqb_eq in Q. congruence.
  - apply IHl in E as (E & F). split; auto. right. exact E.
Qed.
Lemma lookup_live : forall D x c i, lookup x (concat (cblks c)) = Some i -> wfc c -> dOK D c -> In i (live D c).
Proof.
  intros D x c i E (_ & _ & W) H. apply lookup_in in E as (E & F). apply filter_In. split; auto. destruct (W i E) as (_ & U). rewrite U by congruence. cbn.
  destruct (inD D i) eqn:Q; auto. unfold inD in Q. apply existsb_exists in Q as (d & Hd & Q). apply Nat.eqb_eq in Q. destruct (H d Hd) as (_ & G). rewrite (G i E Q) in F. discriminate.
Qed.
Lemma live_NoDup : forall D c, wfc c -> NoDup (map islot (live D c)).
Proof.
  intros D c (_ & W & _). unfold live. induction (idents c) as [|i l]; auto. inversion W; subst. cbn [filter]. destruct (_ && _); auto. cbn [map]. constructor; auto.
  intros H. apply H1. apply in_map_iff in H as (j & E & I). apply filter_In in I as (I & _). rewrite <- E. apply in_map. exact I.
Qed.
Lemma live_lt : forall D c n, wfc c -> cnext c <= n -> ~ In n (map islot (live D c)).
Proof. intros D c n (_ & _ & W) H I. apply in_map_iff in I as (i & E & I). apply filter_In in I as (I & _). apply W in I. lia. Qed.

Section Facts.
Variable gty : list bool.
Variable sigs : list (list bool * option bool).
Lemma own_facts : forall a c r, wfc a -> wfc c -> ext a c -> (forall t, etmp r = Some t -> egc r = true /\ tmpOK a c t) -> wfc (snd (own r c)) /\ ext a (snd (own r c)).
Proof.
  intros a c r Wa Wc E H. unfold own. destruct (etmp r) as [t|]; cbn; auto. destruct (H t eq_refl) as (_ & T). destruct (tmp_facts _ _ _ T Wc) as (A & B & _). split.
  - apply unuse_wfc; auto. intros i I S. rewrite (B i I S). reflexivity.
  - apply unuse_ext; auto. destruct T as (b & _ & T & _). exact T.
Qed.
Definition Efact (e : expr) : Prop := forall c r c', cexpr gty sigs e c = Ok (r, c') -> wfc c -> wfc c' /\ ext c c' /\ forall t, etmp r = Some t -> egc r = true /\ tmpOK c c' t.
Definition Afact (a : args) : Prop := forall ps c p c', cargs gty sigs a ps c = Ok (p, c') -> wfc c -> wfc c' /\ ext c c'.
End Facts.
Scheme expr_mut := Induction for expr Sort Prop with args_mut := Induction for args Sort Prop.
Combined Scheme expr_args_ind from expr_mut, args_mut.
Section Facts.
Variable gty : list bool.
Variable sigs : list (list bool * option bool).
Ltac inv1 H := match type of H with bind ?x _ = _ => let E := fresh "E" in destruct x as [[? ?]| | ] eqn:E; cbn [bind] in H; try discriminate H end.
Ltac nt := intros ? Hx; cbn in Hx; discriminate Hx.
Lemma facts : (forall e, Efact gty sigs e) /\ (forall a, Afact gty sigs a).
Proof.
  apply expr_args_ind; unfold Efact, Afact; cbn [cexpr cargs].
  - intros z c r c' H W. injection H as <- <-. split; auto. split; [apply ext_refl; auto|nt].
  - intros c r c' H W. injection H as <- <-. split; auto. split; [apply ext_refl; auto|nt].
  - intros x c r c' H W. destruct (lookup _ _); [|discriminate]. injection H as <- <-. split; auto. split; [apply ext_refl; auto|nt].
  - intros x c r c' H W. destruct (nth_error _ _); [|discriminate]. injection H as <- <-. split; auto. split; [apply ext_refl; auto|nt].
  - intros f a IH c r c' H W. destruct (nth_error sigs f) as [[ps [gc|]]|]; try discriminate. inv1 H. destruct (IH _ _ _ _ E W) as (A & B). destruct gc.
    + inv1 H. injection H as <- <-. destruct (alloc_facts _ _ _ _ _ E0 A) as (_ & _ & _ & P & Q & _). split; auto. split; [eapply ext_trans; eauto|].
      cbn. intros t Ht. injection Ht as <-. split; auto. eapply alloc_tmp; eauto.
    + injection H as <- <-. split; auto. split; auto. nt.
  - intros z c r c' H W. inv1 H. injection H as <- <-. destruct (alloc_facts _ _ _ _ _ E W) as (_ & _ & _ & P & Q & _). split; auto. split; auto.
    cbn. intros t Ht. injection Ht as <-. split; auto. eapply (alloc_tmp c c); eauto. apply ext_refl. exact W.
  - intros e IH c r c' H W. inv1 H. destruct (egc e0); [|discriminate]. injection H as <- <-. destruct (IH _ _ _ E W) as (A & B & _). split; auto. split; auto. nt.
  - intros a IHa b IHb c r c' H W. inv1 H. inv1 H. destruct (egc _ && egc _); [|discriminate]. inv1 H. injection H as <- <-.
    destruct (IHa _ _ _ E W) as (A1 & A2 & _). destruct (IHb _ _ _ E0 A1) as (B1 & B2 & _). destruct (alloc_facts _ _ _ _ _ E1 B1) as (_ & _ & _ & P & Q & _).
    split; auto. split; [eapply ext_trans; [|exact Q]; eapply ext_trans; eauto|]. cbn. intros t Ht. injection Ht as <-. split; auto. eapply alloc_tmp; [eapply ext_trans; eauto|eauto|auto].
  - intros a IHa b IHb c r c' H W. inv1 H. inv1 H. destruct (egc _ || egc _); [discriminate|]. injection H as <- <-.
    destruct (IHa _ _ _ E W) as (A1 & A2 & _). destruct (IHb _ _ _ E0 A1) as (B1 & B2 & _). split; auto. split; [eapply ext_trans; eauto|nt].
  - intros a IHa b IHb c r c' H W. inv1 H. inv1 H. destruct (egc _ || egc _); [discriminate|]. injection H as <- <-.
    destruct (IHa _ _ _ E W) as (A1 & A2 & _). destruct (IHb _ _ _ E0 (wfc_enter _ A1)) as (B1 & B2 & _). destruct (wfc_leave _ _ B2 A1 B1) as (C1 & C2 & _).
    split; auto. split; [eapply ext_trans; eauto|nt].
  - intros a IHa b IHb c r c' H W. inv1 H. inv1 H. destruct (egc _ || egc _); [discriminate|]. injection H as <- <-.
    destruct (IHa _ _ _ E W) as (A1 & A2 & _). destruct (IHb _ _ _ E0 (wfc_enter _ A1)) as (B1 & B2 & _). destruct (wfc_leave _ _ B2 A1 B1) as (C1 & C2 & _).
    split; auto. split; [eapply ext_trans; eauto|nt].
  - intros q IHq a IHa b IHb c r c' H W. inv1 H. destruct (egc e) eqn:G; [discriminate|]. inv1 H. destruct (IHq _ _ _ E W) as (Q1 & Q2 & _).
    destruct (IHa _ _ _ E0 (wfc_enter _ Q1)) as (A1 & A2 & _). destruct (wfc_leave _ _ A2 Q1 A1) as (C1 & C2 & _). destruct (egc e0).
    + inv1 H. inv1 H. destruct (egc e1); [|discriminate]. injection H as <- <-. destruct (alloc_facts _ _ _ _ _ E1 C1) as (_ & _ & _ & P & Q & _).
      destruct (IHb _ _ _ E2 (wfc_enter _ P)) as (B1 & B2 & _). destruct (wfc_leave _ _ B2 P B1) as (F1 & F2 & _).
      split; auto. split; [|nt]. eapply ext_trans; [exact Q2|]. eapply ext_trans; [exact C2|]. eapply ext_trans; eauto.
    + inv1 H. destruct (egc e1); [discriminate|]. injection H as <- <-.
      destruct (IHb _ _ _ E1 (wfc_enter _ C1)) as (B1 & B2 & _). destruct (wfc_leave _ _ B2 C1 B1) as (F1 & F2 & _).
      split; auto. split; [|nt]. eapply ext_trans; [exact Q2|]. eapply ext_trans; [exact C2|]. auto.
  - intros [|p ps] c q c' H W; [|discriminate]. injection H as <- <-. split; auto. apply ext_refl. exact W.
  - intros e IHe a IHa [|p ps] c q c' H W; [discriminate|]. inv1 H. destruct (eqb _ _); [|discriminate]. destruct (IHe _ _ _ E W) as (A1 & A2 & A3).
    destruct (own e0 c0) as [k c1] eqn:O. inv1 H. injection H as <- <-. destruct (own_facts c c0 e0 W A1 A2 A3) as (B1 & B2). rewrite O in *. cbn in *.
    destruct (IHa _ _ _ _ E0 B1) as (C1 & C2). split; auto. eapply ext_trans; eauto.
Qed.
Definition exprFacts := proj1 facts.
Definition argsFacts := proj2 facts.
Lemma unuse_after : forall a c c' t x gc n, wfc a -> wfc c -> ext a c -> tmpOK a c t -> allocVar (Some x) gc c = Ok (n, c') -> wfc (unuse t c') /\ ext a (unuse t c') /\ atTop t c'.
Proof.
  intros a c c' t x gc n Wa W E T Al. destruct (tmp_facts _ _ _ T W) as (A & B & C & _). destruct (alloc_facts _ _ _ _ _ Al W) as (-> & N & (b & l & P & Q) & W' & E' & X).
  destruct T as (b0 & T1 & T2 & T3). split; [|split].
  - apply unuse_wfc; auto. intros i I S. rewrite X in I. destruct I as [<- |I]; [cbn in S; lia|]. rewrite (B i I S). reflexivity.
  - apply unuse_ext; auto. eapply ext_trans; eauto.
  - unfold atTop, top in *. rewrite Q. rewrite P in A. cbn in *. auto.
Qed.
Lemma stmtFacts : forall rs s lp c p c', cstmt gty sigs rs s lp c = Ok (p, c') -> wfc c -> wfc c' /\ ext c c'.
Proof.
  induction s as [|sa IHs1 sb IHs2|x e|x e|g e|f a|s IHs|si IHs1 q sa IHs2 sb IHs3|si IHs1 q sp IHs2 sb IHs3| | |e]; intros lp c p c' H W; cbn [cstmt] in H.
  - injection H as <- <-. split; auto. apply ext_refl. exact W.
  - inv1 H. inv1 H. injection H as <- <-. destruct (IHs1 _ _ _ _ E W) as (A & B). destruct (IHs2 _ _ _ _ E0 A) as (C & D). split; auto. eapply ext_trans; eauto.
  - inv1 H. inv1 H. destruct (exprFacts _ _ _ _ E W) as (A & B & C). destruct (alloc_facts _ _ _ _ _ E0 A) as (_ & _ & _ & P & Q & _).
    destruct (etmp e0) as [t|] eqn:T; injection H as <- <-.
    + destruct (C t eq_refl) as (_ & T'). destruct (unuse_after _ _ _ _ _ _ _ W A B T' E0) as (X & Y & _). auto.
    + split; auto. eapply ext_trans; eauto.
  - destruct (lookup _ _) as [i|]; [|discriminate]. inv1 H. destruct (exprFacts _ _ _ _ E W) as (A & B & C). destruct (negb _); [discriminate|].
    pose proof (own_facts c c0 e0 W A B C) as O. unfold own in O. destruct (etmp e0) as [t|] eqn:T; injection H as <- <-; auto.
  - destruct (nth_error _ _) as [gc|]; [|discriminate]. inv1 H. destruct (exprFacts _ _ _ _ E W) as (A & B & C). destruct (negb _); [discriminate|].
    pose proof (own_facts c c0 e0 W A B C) as O. unfold own in O. destruct (etmp e0) as [t|] eqn:T; injection H as <- <-; auto.
  - destruct (nth_error sigs f) as [[ps [gc|]]|] eqn:Q; [|inv1 H; injection H as <- <-; eapply argsFacts; eauto|discriminate].
    inv1 H. injection H as <- <-. destruct (exprFacts _ _ _ _ E W) as (A & B & _). auto.
  - inv1 H. injection H as <- <-. destruct (IHs _ _ _ _ E (wfc_enter _ W)) as (A & B). destruct (wfc_leave _ _ B W A) as (C & D & _). auto.
  - destruct (negb _); [discriminate|]. inv1 H. inv1 H. destruct (egc e); [discriminate|]. inv1 H. inv1 H. injection H as <- <-.
    destruct (IHs1 _ _ _ _ E (wfc_enter _ W)) as (A & B). destruct (exprFacts _ _ _ _ E0 A) as (C & D & _).
    destruct (IHs2 _ _ _ _ E1 (wfc_enter _ C)) as (F & G). destruct (wfc_leave _ _ G C F) as (F1 & G1 & _).
    destruct (IHs3 _ _ _ _ E2 (wfc_enter _ F1)) as (F2 & G2). destruct (wfc_leave _ _ G2 F1 F2) as (F3 & G3 & _).
    assert (Z : ext (enter c) (leave c3)). { eapply ext_trans; [exact B|]. eapply ext_trans; [exact D|]. eapply ext_trans; eauto. }
    destruct (wfc_leave _ _ Z W F3) as (X & Y & _). auto.
  - destruct (negb _); [discriminate|]. inv1 H. inv1 H. destruct (egc e); [discriminate|]. inv1 H. inv1 H. injection H as <- <-.
    destruct (IHs1 _ _ _ _ E (wfc_enter _ W)) as (A & B). destruct (exprFacts _ _ _ _ E0 (wfc_enter _ A)) as (C & D & _).
    destruct (wfc_leave _ _ D A C) as (C1 & D1 & _).
    destruct (IHs2 _ _ _ _ E1 (wfc_enter _ C1)) as (F & G). destruct (wfc_leave _ _ G C1 F) as (F1 & G1 & _).
    destruct (IHs3 _ _ _ _ E2 (wfc_enter _ F1)) as (F2 & G2). destruct (wfc_leave _ _ G2 F1 F2) as (F3 & G3 & _).
    assert (Z : ext (enter c) (leave c3)). { eapply ext_trans; [exact B|]. eapply ext_trans; [exact D1|]. eapply ext_trans; eauto. }
    destruct (wfc_leave _ _ Z W F3) as (X & Y & _). auto.
  - destruct lp; [|discriminate]. injection H as <- <-. split; auto. apply ext_refl. exact W.
  - destruct lp; [|discriminate]. injection H as <- <-. split; auto. apply ext_refl. exact W.
  - destruct e as [e|], rs as [gc|]; try discriminate.
    + inv1 H. destruct (negb _); [discriminate|]. destruct (exprFacts _ _ _ _ E W) as (A & B & C). destruct (own_facts c c0 e0 W A B C) as (X & Y).
      destruct (own e0 c0). injection H as <- <-. auto.
    + injection H as <- <-. split; auto. apply ext_refl. exact W.
Qed.
End Facts.

From Coq Require Import ZArith Lia Bool List ZifyBool Permutation.
From Verif Require Import Base MemModel BlkModel CmpModel HeapModel HeapSpec HeapProofs.
Import ListNotations.
Local Open Scope Z_scope.
Ltac Zify.zify_post_hook ::= Z.div_mod_to_equations.

Ltac perm := apply (Permutation_count_occ Z.eq_dec); let x := fresh in intro x;
  repeat (rewrite count_occ_app || cbn [count_occ]); repeat match goal with |- context [Z.eq_dec ?u ?v] => destruct (Z.eq_dec u v) end; lia.

Lemma nodup_l (a b : list Z) : NoDup (a ++ b) -> NoDup a.
Proof. induction a as [|x a IH]; cbn; intro H; [constructor|]. apply NoDup_cons_iff in H as [H1 H2]. constructor; [intro X; apply H1, in_or_app; left; exact X|auto]. Qed.
Lemma nodup_r (a b : list Z) : NoDup (a ++ b) -> NoDup b.
Proof. induction a as [|x a IH]; cbn; intro H; [exact H|]. apply NoDup_cons_iff in H as [H1 H2]. auto. Qed.
Lemma nodup_d (a b : list Z) x : NoDup (a ++ b) -> In x a -> ~ In x b.
Proof.
  induction a as [|y a IH]; cbn; intros H Hx Hb; [destruct Hx|]. apply NoDup_cons_iff in H as [H1 H2]. destruct Hx as [->|Hx]; [apply H1, in_or_app; right; exact Hb|exact (IH H2 Hx Hb)].
Qed.
(** The lists are disjoint. *)
Lemma lists_sep h F R B X : lists h F R B X -> geo h ->
  NoDup F /\ NoDup R /\ NoDup B /\ NoDup X /\
  (forall x, In x F -> ~ In x R /\ ~ In x B /\ ~ In x X) /\ (forall x, In x R -> ~ In x F /\ ~ In x B /\ ~ In x X) /\
  (forall x, In x B -> ~ In x F /\ ~ In x R /\ ~ In x X) /\ (forall x, In x X -> ~ In x F /\ ~ In x R /\ ~ In x B).
Proof.
  intros L Hg. pose proof (lists_nodup _ _ _ _ _ L Hg) as N. pose proof (nodup_r _ _ N) as N2. pose proof (nodup_r _ _ N2) as N3.
  split; [exact (nodup_l _ _ N)|]. split; [exact (nodup_l _ _ N2)|]. split; [exact (nodup_l _ _ N3)|]. split; [exact (nodup_r _ _ N3)|].
  pose proof (fun x => nodup_d _ _ x N) as D1. pose proof (fun x => nodup_d _ _ x N2) as D2. pose proof (fun x => nodup_d _ _ x N3) as D3.
  assert (A1 : forall x, In x F -> ~ In x R /\ ~ In x B /\ ~ In x X) by (intros x Hx; specialize (D1 x Hx); rewrite !in_app_iff in D1; tauto).
  assert (A2 : forall x, In x R -> ~ In x B /\ ~ In x X) by (intros x Hx; specialize (D2 x Hx); rewrite !in_app_iff in D2; tauto).
  split; [exact A1|]. split; [|split]; intros x Hx; specialize (A1 x); specialize (A2 x); specialize (D3 x); tauto.
Qed.

Lemma geo_same h h' : same_pay h h' -> h_blocks h' = h_blocks h -> h_total h' = h_total h -> geo h -> geo h'.
Proof.
  intros S E1 E2 [G1 G2 G3 G4]. constructor.
  - rewrite E1. exact G1.
  - intros a n Hn. rewrite E1 in Hn. destruct (pay_fields _ _ (S a)) as (_ & _ & P3 & _ & _ & P6 & P7). unfold page_size. rewrite P3, P6, P7. apply G2. exact Hn.
  - rewrite E1. exact G3.
  - rewrite E1, E2. exact G4.
Qed.
Lemma rng_sub h h' F F' : same_pay h h' -> h_low h' = h_low h -> h_high h' = h_high h -> incl F' F -> (h_last h' = 0 \/ In (h_last h') F') -> rng h F -> rng h' F'.
Proof.
  intros S E1 E2 HI HL (_ & H & H0). split; [exact HL|]. split; [|rewrite E1; exact H0]. intros a Ha. destruct (pay_fields _ _ (S a)) as (_ & _ & _ & _ & _ & _ & P7). rewrite E1, E2, P7. apply H, HI, Ha.
Qed.
Lemma used_sub h h' F' : same_pay h h' -> (forall a, In a F' -> 0 < pg_ref (h_page h a)) -> used h' F'.
Proof. intros S H a Ha. destruct (pay_fields _ _ (S a)) as (_ & P2 & _). rewrite P2. auto. Qed.

Lemma unlink_list h l1 a l2 : dseg (nx h) (pv h) 0 (l1 ++ a :: l2) -> NoDup (l1 ++ a :: l2) -> ~ In 0 (l1 ++ a :: l2) ->
  dseg (nx (unlink h a)) (pv (unlink h a)) 0 (l1 ++ l2) /\ nx h a = hd 0 l2 /\
  (forall x, ~ In x (l1 ++ a :: l2) -> nx (unlink h a) x = nx h x /\ pv (unlink h a) x = pv h x).
Proof.
  intros D N H0. destruct (dseg_mid _ _ _ _ _ _ D) as [M1 M2].
  assert (E : pv h a <> a).
  { rewrite M1. destruct l1 as [|c l1]; [cbn; intro X; apply H0; left; congruence|]. pose proof (last_in (c :: l1) 0 ltac:(discriminate)) as Q. intro X. rewrite X in Q.
    apply NoDup_remove_2 in N. apply N, in_or_app. left. exact Q. }
  split; [|split; [exact M2|]].
  - eapply dseg_remove; [exact D|exact N|exact H0|exact H0| |]; intro x; [apply unlink_nx; exact E|apply unlink_pv; exact E].
  - intros x Hx. eapply dseg_frame; [exact D| | |exact Hx]; intro y; [apply unlink_nx; exact E|apply unlink_pv; exact E].
Qed.
Lemma nodup_hd (a : Z) l1 l2 : NoDup (l1 ++ a :: l2) -> a = hd 0 (l1 ++ a :: l2) -> l1 = [].
Proof.
  intros N H. destruct l1 as [|c l1]; [reflexivity|]. cbn in H. subst c. exfalso. cbn in N. apply NoDup_cons_iff in N as [N _]. apply N, in_or_app. right. left. reflexivity.
Qed.

(** Detaching a page from the list of pages in use. *)
Definition detachF (h : heap) (a : Z) : heap := unlink (if a =? h_first h then set_first h (pg_next (h_page h a)) else h) a.
Lemma lists_detachF h l1 a l2 R B X : lists h (l1 ++ a :: l2) R B X -> geo h -> lists (detachF h a) (l1 ++ l2) R B (a :: X) /\ same_pay h (detachF h a) /\ same_rest h (detachF h a) /\
  h_last (detachF h a) = h_last h.
Proof.
  intros L Hg. destruct (lists_sep _ _ _ _ _ L Hg) as (NF & NR & NB & NX & SF & SR & SB & SX). pose proof (F_n0 _ _ _ _ _ L Hg) as F0.
  pose proof (l_first _ _ _ _ _ L) as HF. destruct (unlink_list h l1 a l2 (l_F _ _ _ _ _ L) NF F0) as (D & M2 & FR).
  set (h0 := if a =? h_first h then set_first h (pg_next (h_page h a)) else h).
  assert (E0 : h_page h0 = h_page h) by (unfold h0; destruct (a =? h_first h); reflexivity).
  assert (EU : forall x, nx (unlink h0 a) x = nx (unlink h a) x /\ pv (unlink h0 a) x = pv (unlink h a) x).
  { intro x. unfold unlink, nx, pv, modify, set_page. rewrite E0. destruct (pg_prev (h_page h a) =? 0); cbn [h_page]; rewrite ?E0;
    match goal with |- context [if ?b then _ else _] => destruct b end; cbn [h_page]; rewrite ?E0; auto. }
  destruct (unlink_rest h0 a) as (U0 & U1 & U2 & U3 & U4 & U5).
  assert (S0 : same_pay h h0) by (intro x; rewrite E0; reflexivity).
  assert (R0 : same_rest h h0) by (unfold h0; destruct (a =? h_first h); unfold same_rest; cbn; auto 10).
  unfold detachF. fold h0. split; [|split; [eapply same_trans; [exact S0|apply unlink_same]|split; [eapply rest_trans; [exact R0|exact U0]|rewrite U4; unfold h0; destruct (a =? h_first h); reflexivity]]].
  constructor.
  - apply (dseg_ext (nx (unlink h a)) (pv (unlink h a))); [intros x _; apply EU|exact D].
  - rewrite U1. unfold h0. destruct (a =? h_first h) eqn:E.
    + cbn [set_first h_first]. rewrite (nodup_hd a l1 l2 NF) by (rewrite <- HF; lia). exact M2.
    + rewrite HF. destruct l1 as [|c l1]; [cbn in HF; lia|reflexivity].
  - apply (sseg_ext (nx h)); [|exact (l_R _ _ _ _ _ L)]. intros x Hx. destruct (EU x) as [-> _]. apply FR. apply SR. exact Hx.
  - rewrite U2. unfold h0. destruct (a =? h_first h); exact (l_rec _ _ _ _ _ L).
  - apply (dseg_ext (nx h) (pv h)); [|exact (l_B _ _ _ _ _ L)]. intros x Hx. destruct (EU x) as [-> ->]. apply FR. apply SB. exact Hx.
  - rewrite U3. unfold h0. destruct (a =? h_first h); exact (l_blk _ _ _ _ _ L).
  - destruct U0 as (_ & _ & -> & _). destruct R0 as (_ & _ & -> & _). eapply Permutation_trans; [exact (l_perm _ _ _ _ _ L)|]. perm.
Qed.
(** The same for the blacklist. *)
Definition detachB (h : heap) (a : Z) : heap := unlink (if a =? h_black h then set_black h (pg_next (h_page h a)) (h_blsize h) else h) a.
Lemma lists_detachB h l1 a l2 F R X : lists h F R (l1 ++ a :: l2) X -> geo h -> lists (detachB h a) F R (l1 ++ l2) (a :: X) /\ same_pay h (detachB h a) /\ same_rest h (detachB h a) /\
  h_last (detachB h a) = h_last h.
Proof.
  intros L Hg. destruct (lists_sep _ _ _ _ _ L Hg) as (NF & NR & NB & NX & SF & SR & SB & SX).
  assert (F0 : ~ In 0 (l1 ++ a :: l2)) by (intro Y; apply (lists_n0 _ _ _ _ _ L Hg); rewrite !in_app_iff in *; tauto).
  pose proof (l_blk _ _ _ _ _ L) as HF. destruct (unlink_list h l1 a l2 (l_B _ _ _ _ _ L) NB F0) as (D & M2 & FR).
  set (h0 := if a =? h_black h then set_black h (pg_next (h_page h a)) (h_blsize h) else h).
  assert (E0 : h_page h0 = h_page h) by (unfold h0; destruct (a =? h_black h); reflexivity).
  assert (EU : forall x, nx (unlink h0 a) x = nx (unlink h a) x /\ pv (unlink h0 a) x = pv (unlink h a) x).
  { intro x. unfold unlink, nx, pv, modify, set_page. rewrite E0. destruct (pg_prev (h_page h a) =? 0); cbn [h_page]; rewrite ?E0;
    match goal with |- context [if ?b then _ else _] => destruct b end; cbn [h_page]; rewrite ?E0; auto. }
  destruct (unlink_rest h0 a) as (U0 & U1 & U2 & U3 & U4 & U5).
  assert (S0 : same_pay h h0) by (intro x; rewrite E0; reflexivity).
  assert (R0 : same_rest h h0) by (unfold h0; destruct (a =? h_black h); unfold same_rest; cbn; auto 10).
  unfold detachB. fold h0. split; [|split; [eapply same_trans; [exact S0|apply unlink_same]|split; [eapply rest_trans; [exact R0|exact U0]|rewrite U4; unfold h0; destruct (a =? h_black h); reflexivity]]].
  constructor.
  - apply (dseg_ext (nx h) (pv h)); [|exact (l_F _ _ _ _ _ L)]. intros x Hx. destruct (EU x) as [-> ->]. apply FR. apply SF. exact Hx.
  - rewrite U1. unfold h0. destruct (a =? h_black h); exact (l_first _ _ _ _ _ L).
  - apply (sseg_ext (nx h)); [|exact (l_R _ _ _ _ _ L)]. intros x Hx. destruct (EU x) as [-> _]. apply FR. apply SR. exact Hx.
  - rewrite U2. unfold h0. destruct (a =? h_black h); exact (l_rec _ _ _ _ _ L).
  - apply (dseg_ext (nx (unlink h a)) (pv (unlink h a))); [intros x _; apply EU|exact D].
  - rewrite U3. unfold h0. destruct (a =? h_black h) eqn:E.
    + cbn [set_black h_black]. rewrite (nodup_hd a l1 l2 NB) by (rewrite <- HF; lia). exact M2.
    + rewrite HF. destruct l1 as [|c l1]; [cbn in HF; lia|reflexivity].
  - destruct U0 as (_ & _ & -> & _). destruct R0 as (_ & _ & -> & _). eapply Permutation_trans; [exact (l_perm _ _ _ _ _ L)|]. perm.
Qed.
(** A detached page is recycled. *)
Lemma lists_recycle h F R B X a : lists h F R B (a :: X) -> geo h -> lists (pageMoveToRecycled h a) F (a :: R) B X /\ same_pay h (pageMoveToRecycled h a) /\
  same_rest h (pageMoveToRecycled h a) /\ h_last (pageMoveToRecycled h a) = h_last h.
Proof.
  intros L Hg. destruct (lists_sep _ _ _ _ _ L Hg) as (NF & NR & NB & NX & SF & SR & SB & SX). destruct (SX a (or_introl eq_refl)) as (X1 & X2 & X3).
  assert (N : forall x, nx (pageMoveToRecycled h a) x = if x =? a then h_recycled h else nx h x) by (intro x; unfold nx, pageMoveToRecycled, modify, set_page, set_recycled; cbn; destruct (x =? a); reflexivity).
  assert (V : forall x, pv (pageMoveToRecycled h a) x = pv h x) by (intro x; unfold pv, pageMoveToRecycled, modify, set_page, set_recycled; cbn; destruct (x =? a) eqn:E; [cbn; do 2 f_equal; lia|reflexivity]).
  assert (NE : forall l x, ~ In a l -> In x l -> nx (pageMoveToRecycled h a) x = nx h x) by (intros l x Hl Hx; rewrite N; destruct (x =? a) eqn:E; [exfalso; apply Hl; replace a with x by lia; exact Hx|reflexivity]).
  split; [|split; [intro x; unfold pageMoveToRecycled, modify, set_page, set_recycled; cbn; destruct (x =? a) eqn:E; [cbn; unfold pay; replace x with a by lia; reflexivity|reflexivity]|split; [unfold same_rest; cbn; auto 10|reflexivity]]].
  constructor.
  - apply (dseg_ext (nx h) (pv h)); [|exact (l_F _ _ _ _ _ L)]. intros x Hx. split; [exact (NE F x X1 Hx)|apply V].
  - exact (l_first _ _ _ _ _ L).
  - cbn [sseg]. split; [rewrite N, Z.eqb_refl; exact (l_rec _ _ _ _ _ L)|]. apply (sseg_ext (nx h)); [|exact (l_R _ _ _ _ _ L)]. intros x Hx. exact (NE R x X2 Hx).
  - reflexivity.
  - apply (dseg_ext (nx h) (pv h)); [|exact (l_B _ _ _ _ _ L)]. intros x Hx. split; [exact (NE B x X3 Hx)|apply V].
  - exact (l_blk _ _ _ _ _ L).
  - eapply Permutation_trans; [exact (l_perm _ _ _ _ _ L)|]. perm.
Qed.
Lemma set_black_size h F R B X n : lists h F R B X -> lists (set_black h (h_black h) n) F R B X.
Proof. intros [? ? ? ? ? ? ?]. constructor; assumption. Qed.
(** The sweep of the blacklist. *)
Lemma may_same h h' a : same_pay h h' -> h_temps h' = h_temps h -> pageMayBeReferencedByTemporaries h' a = pageMayBeReferencedByTemporaries h a.
Proof. intros S E. unfold pageMayBeReferencedByTemporaries. destruct (pay_fields _ _ (S a)) as (_ & _ & _ & _ & _ & _ & ->). rewrite E. reflexivity. Qed.
Lemma sweep_ok : forall B2 fuel h F R B1 X, lists h F R (B1 ++ B2) X -> geo h -> (length B2 < fuel)%nat ->
  exists h' R' B', sweep fuel h (hd 0 B2) = Ok h' /\ lists h' F R' B' X /\ same_pay h h' /\ same_rest h h' /\ h_last h' = h_last h /\
    (forall x, In x R' -> In x R \/ pageMayBeReferencedByTemporaries h x = false).
Proof.
  induction B2 as [|a B2 IH]; intros fuel h F R B1 X L Hg HL; (destruct fuel as [|fuel]; [cbn in HL; lia|]); cbn [hd sweep].
  - exists h, R, (B1 ++ []). split; [reflexivity|]. split; [exact L|]. split; [apply same_refl|]. split; [apply rest_refl|]. split; [reflexivity|auto].
  - destruct (a =? 0) eqn:E0; [exfalso; apply (lists_n0 _ _ _ _ _ L Hg); rewrite !in_app_iff; cbn; right; right; left; right; left; lia|].
    destruct (dseg_mid _ _ _ _ _ _ (l_B _ _ _ _ _ L)) as [_ M2]. unfold nx in M2.
    destruct (pageMayBeReferencedByTemporaries h a) eqn:EM.
    + rewrite M2. replace (B1 ++ a :: B2) with ((B1 ++ [a]) ++ B2) in L by (rewrite <- app_assoc; reflexivity). apply (IH fuel h F R (B1 ++ [a]) X L Hg). cbn in HL. lia.
    + change (unlink _ a) with (detachB h a). rewrite M2. destruct (lists_detachB h B1 a B2 F R X L Hg) as (L1 & S1 & R1 & Q1).
      assert (Hg1 : geo (detachB h a)) by (apply (geo_same h); [exact S1|apply R1|apply R1|exact Hg]).
      destruct (lists_recycle _ _ _ _ _ _ L1 Hg1) as (L2 & S2 & R2 & Q2). set (h2 := pageMoveToRecycled (detachB h a) a) in *.
      pose proof (set_black_size h2 _ _ _ _ (h_blsize h2 - page_size (h_page h2 a)) L2) as L3.
      set (h3 := set_black h2 (h_black h2) (h_blsize h2 - page_size (h_page h2 a))) in *.
      assert (S3 : same_pay h h3) by (eapply same_trans; [exact S1|]; eapply same_trans; [exact S2|]; intro; reflexivity).
      assert (R3 : same_rest h h3) by (eapply rest_trans; [exact R1|]; eapply rest_trans; [exact R2|]; unfold same_rest; cbn; auto 10).
      destruct (IH fuel h3 F (a :: R) B1 X L3) as (h' & R' & B' & A1 & A2 & A3 & A4 & A5 & A6); [apply (geo_same h); [exact S3|apply R3|apply R3|exact Hg]|cbn in HL; lia|].
      exists h', R', B'. split; [exact A1|]. split; [exact A2|]. split; [eapply same_trans; eassumption|]. split; [eapply rest_trans; eassumption|]. split; [rewrite A5; cbn; rewrite <- Q1, <- Q2; reflexivity|].
      intros x Hx. destruct (A6 x Hx) as [[<-|Y]|Y]; [right; exact EM|left; exact Y|right]. rewrite <- Y. symmetry. apply may_same; [exact S3|apply R3].
Qed.
(** A detached page is blacklisted. *)
Lemma lists_blacklist h F R B X a : lists h F R B (a :: X) -> geo h ->
  exists h' R' B', pageMoveToBlacklisted h a = Ok h' /\ lists h' F R' B' X /\ same_pay h h' /\ same_rest h h' /\ h_last h' = h_last h /\
    (forall x, In x R' -> In x R \/ pageMayBeReferencedByTemporaries h x = false).
Proof.
  intros L Hg. unfold pageMoveToBlacklisted, pageMoveBlacklistedToRecycled.
  assert (Hs : exists h1 R1 B1, (if h_blsize h <? MAX_BLACKLISTED then Ok h else sweep (walk h) h (h_black h)) = Ok h1 /\ lists h1 F R1 B1 (a :: X) /\ same_pay h h1 /\ same_rest h h1 /\ h_last h1 = h_last h /\
    (forall x, In x R1 -> In x R \/ pageMayBeReferencedByTemporaries h x = false)).
  { destruct (h_blsize h <? MAX_BLACKLISTED).
    - exists h, R, B. split; [reflexivity|]. split; [exact L|]. split; [apply same_refl|]. split; [apply rest_refl|]. auto.
    - rewrite (l_blk _ _ _ _ _ L). apply (sweep_ok B (walk h) h F R [] (a :: X)); [exact L|exact Hg|eapply walk_len; [exact L|auto]]. }
  destruct Hs as (h1 & R1 & B1 & -> & L1 & S1 & RR1 & Q1 & T1). cbn [bind].
  assert (Hg1 : geo h1) by (apply (geo_same h); [exact S1|apply RR1|apply RR1|exact Hg]).
  destruct (lists_sep _ _ _ _ _ L1 Hg1) as (NF & NR & NB & NX & SF & SR & SB & SX). destruct (SX a (or_introl eq_refl)) as (X1 & X2 & X3).
  pose proof (l_blk _ _ _ _ _ L1) as HB.
  set (h2 := modify h1 a (fun p => with_next (with_prev p 0) (h_black h1))).
  change (h_black h2) with (h_black h1). set (h3 := if h_black h1 =? 0 then h2 else modify h2 (h_black h1) (fun p => with_prev p a)).
  exists (set_black h3 a (h_blsize h3 + page_size (h_page h3 a))), R1, (a :: B1). split; [reflexivity|].
  assert (P3 : h_page (set_black h3 a (h_blsize h3 + page_size (h_page h3 a))) = h_page h3) by reflexivity.
  assert (N : forall x, nx h3 x = if x =? a then h_black h1 else nx h1 x).
  { intro x. unfold h3. destruct (h_black h1 =? 0) eqn:E.
    - unfold h2, nx, modify, set_page. cbn. destruct (x =? a); reflexivity.
    - unfold h2, nx, modify, set_page. cbn. destruct (x =? h_black h1) eqn:E2; [|destruct (x =? a); reflexivity]. cbn. replace (h_black h1) with x by lia. destruct (x =? a); cbn; lia || reflexivity. }
  assert (V : forall x, pv h3 x = if (x =? h_black h1) && negb (h_black h1 =? 0) then a else if x =? a then 0 else pv h1 x).
  { intro x. unfold h3. destruct (h_black h1 =? 0) eqn:E.
    - rewrite andb_false_r. unfold h2, pv, modify, set_page. cbn. destruct (x =? a); reflexivity.
    - rewrite andb_true_r. unfold h2, pv, modify, set_page. cbn. destruct (x =? h_black h1) eqn:E2; [reflexivity|]. destruct (x =? a); reflexivity. }
  assert (S3 : same_pay h1 h3).
  { assert (same_pay h1 h2) by (apply same_modify; reflexivity). unfold h3. destruct (h_black h1 =? 0); [assumption|]. eapply same_trans; [eassumption|]. apply same_modify. reflexivity. }
  assert (RR3 : same_rest h1 h3 /\ h_first h3 = h_first h1 /\ h_recycled h3 = h_recycled h1 /\ h_last h3 = h_last h1) by (unfold h3, h2; destruct (h_black h1 =? 0); unfold same_rest, modify, set_page; cbn; auto 20).
  destruct RR3 as (RR3 & QF & QR & QL).
  assert (NE : forall l x, ~ In a l -> In x l -> nx h3 x = nx h1 x) by (intros l x Hl Hx; rewrite N; destruct (x =? a) eqn:E; [exfalso; apply Hl; replace a with x by lia; exact Hx|reflexivity]).
  assert (VE : forall l x, ~ In a l -> In x l -> x <> hd 0 B1 -> pv h3 x = pv h1 x).
  { intros l x Hl Hx Hn. rewrite V, HB. destruct (x =? hd 0 B1) eqn:E1; [lia|]. cbn [andb]. destruct (x =? a) eqn:E; [exfalso; apply Hl; replace a with x by lia; exact Hx|reflexivity]. }
  split; [|split; [eapply same_trans; [exact S1|]; intro x; rewrite P3; apply S3|split; [eapply rest_trans; [exact RR1|]; exact RR3|split; [rewrite <- Q1; exact QL|exact T1]]]].
  unfold nx, pv in *. constructor.
  - apply (dseg_ext (nx h1) (pv h1)); [|exact (l_F _ _ _ _ _ L1)]. intros x Hx. split; [exact (NE F x X1 Hx)|apply (VE F x X1 Hx)].
    intro Y. destruct B1 as [|c B1]; cbn in Y; [subst x; exact (F_n0 _ _ _ _ _ L1 Hg1 Hx)|]. destruct (SF x Hx) as (_ & Z1 & _). apply Z1. left. symmetry. exact Y.
  - cbn. rewrite QF. exact (l_first _ _ _ _ _ L1).
  - apply (sseg_ext (nx h1)); [|exact (l_R _ _ _ _ _ L1)]. intros x Hx. exact (NE R1 x X2 Hx).
  - cbn. rewrite QR. exact (l_rec _ _ _ _ _ L1).
  - assert (Ha0 : a <> 0) by (intro Y; apply (lists_n0 _ _ _ _ _ L1 Hg1); rewrite !in_app_iff; cbn; right; right; right; left; exact Y).
    assert (Hab : (a =? h_black h1) && negb (h_black h1 =? 0) = false).
    { rewrite HB. destruct B1 as [|c B1]; cbn; [lia|]. destruct (a =? c) eqn:E; [|reflexivity]. exfalso. apply X3. left. lia. }
    cbn [dseg]. split; [|split].
    + cbn. unfold pv. cbn. rewrite V, Hab, Z.eqb_refl. reflexivity.
    + unfold nx. cbn. rewrite N, Z.eqb_refl. exact HB.
    + pose proof (l_B _ _ _ _ _ L1) as D. destruct B1 as [|c B1]; [exact I|]. cbn [dseg] in D |- *. destruct D as (D1 & D2 & D3). cbn [hd] in HB. apply NoDup_cons_iff in NB as [NB1 NB2].
      assert (Hc0 : c <> 0) by (intro Y; apply (lists_n0 _ _ _ _ _ L1 Hg1); rewrite !in_app_iff; cbn; right; right; left; left; exact Y). split; [|split].
      * unfold pv. cbn. rewrite V, HB, Z.eqb_refl. destruct (c =? 0) eqn:E; [lia|reflexivity].
      * unfold nx. cbn. rewrite (NE (c :: B1) c X3 (or_introl eq_refl)). exact D2.
      * apply (dseg_ext (nx h1) (pv h1)); [|exact D3]. intros x Hx. split; [exact (NE (c :: B1) x X3 (or_intror Hx))|apply (VE (c :: B1) x X3 (or_intror Hx))]. cbn [hd]. intro Y. apply NB1. rewrite <- Y. exact Hx.
  - reflexivity.
  - assert (EB : h_blocks (set_black h3 a (h_blsize h3 + page_size (h_page h3 a))) = h_blocks h1) by (apply RR3). rewrite EB.
    eapply Permutation_trans; [exact (l_perm _ _ _ _ _ L1)|]. perm.
Qed.

(** Removing a page that holds no alive block. *)
Lemma pageRemove_ok h l1 a l2 R B bl : lists h (l1 ++ a :: l2) R B [] -> geo h -> rng h (l1 ++ a :: l2) -> (bl = false -> pageMayBeReferencedByTemporaries h a = false) ->
  exists h' R' B', pageRemove h a bl = Ok h' /\ lists h' (l1 ++ l2) R' B' [] /\ geo h' /\ rng h' (l1 ++ l2) /\ same_pay h h' /\ same_rest h h' /\
    (forall x, In x R' -> In x R \/ pageMayBeReferencedByTemporaries h x = false).
Proof.
  intros L Hg Hr Hbl. unfold pageRemove. change (unlink _ a) with (detachF h a). destruct (lists_detachF _ _ _ _ _ _ _ L Hg) as (L1 & S1 & R1 & Q1).
  set (h1 := detachF h a) in *. set (h2 := if a =? h_last h1 then set_last h1 (h_first h1) else h1).
  assert (L2 : lists h2 (l1 ++ l2) R B [a]) by (unfold h2; destruct (a =? h_last h1); [destruct L1; constructor; assumption|exact L1]).
  assert (S2 : same_pay h h2) by (eapply same_trans; [exact S1|]; unfold h2; destruct (a =? h_last h1); intro; reflexivity).
  assert (R2 : same_rest h h2) by (eapply rest_trans; [exact R1|]; unfold h2; destruct (a =? h_last h1); unfold same_rest; cbn; auto 10).
  assert (Hg2 : geo h2) by (apply (geo_same h); [exact S2|apply R2|apply R2|exact Hg]).
  assert (Hl2 : h_last h2 = 0 \/ In (h_last h2) (l1 ++ l2)).
  { unfold h2. destruct (a =? h_last h1) eqn:E.
    - cbn. rewrite (l_first _ _ _ _ _ L1). destruct (l1 ++ l2) as [|c l]; [left; reflexivity|right; left; reflexivity].
    - rewrite Q1 in *. destruct Hr as [[Y|Y] _]; [left; exact Y|right]. rewrite !in_app_iff in *. cbn in Y. destruct Y as [Y|[Y|Y]]; [auto|lia|auto]. }
  assert (Hr2 : rng h2 (l1 ++ l2)).
  { destruct R2 as (_ & _ & _ & El & Eh & _). apply (rng_sub h _ (l1 ++ a :: l2)); try assumption. intros x Hx. rewrite !in_app_iff in *. cbn. tauto. }
  destruct bl.
  - destruct (lists_blacklist _ _ _ _ _ _ L2 Hg2) as (h' & R' & B' & E & L3 & S3 & R3 & Q3 & T3). exists h', R', B'. split; [exact E|]. split; [exact L3|].
    assert (S : same_pay h h') by (eapply same_trans; eassumption). assert (RR : same_rest h h') by (eapply rest_trans; eassumption).
    split; [apply (geo_same h2); [exact S3|apply R3|apply R3|exact Hg2]|]. split; [apply (rng_sub h2 _ (l1 ++ l2)); [exact S3|apply R3|apply R3|apply incl_refl|rewrite Q3; exact Hl2|exact Hr2]|].
    split; [exact S|]. split; [exact RR|]. intros x Hx. destruct (T3 x Hx) as [Y|Y]; [left; exact Y|right]. rewrite <- Y. symmetry. apply may_same; [exact S2|apply R2].
  - destruct (lists_recycle _ _ _ _ _ _ L2 Hg2) as (L3 & S3 & R3 & Q3). set (h' := pageMoveToRecycled h2 a) in *. exists h', (a :: R), B. split; [reflexivity|]. split; [exact L3|].
    assert (S : same_pay h h') by (eapply same_trans; eassumption). assert (RR : same_rest h h') by (eapply rest_trans; eassumption).
    split; [apply (geo_same h2); [exact S3|apply R3|apply R3|exact Hg2]|]. split; [apply (rng_sub h2 _ (l1 ++ l2)); [exact S3|apply R3|apply R3|apply incl_refl|rewrite Q3; exact Hl2|exact Hr2]|].
    split; [exact S|]. split; [exact RR|]. intros x [<-|Hx]; [right; auto|left; exact Hx].
Qed.

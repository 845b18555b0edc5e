From Coq Require Import ZArith Lia Bool List ZifyBool Permutation.
From Verif Require Import Base MemModel BlkModel CmpModel HeapModel HeapSpec HeapProofs HeapLists.
Import ListNotations.
Local Open Scope Z_scope.
Ltac Zify.zify_post_hook ::= Z.div_mod_to_equations.

(** * Changing a reference count *)
Lemma nth_count s : forall k d j, nth_error (count_ref s k d) j = if Nat.eqb j k then option_map (fun b => add_ref b d) (nth_error s j) else nth_error s j.
Proof.
  induction s as [|b s IH]; intros k d j.
  - destruct j, k; cbn; try reflexivity. destruct (Nat.eqb j k); reflexivity.
  - destruct k, j; cbn [count_ref nth_error Nat.eqb option_map]; try reflexivity. apply IH.
Qed.
Lemma count_len s : forall k d, length (count_ref s k d) = length s.
Proof. induction s as [|b s IH]; intros [|k] d; cbn; try reflexivity. rewrite IH. reflexivity. Qed.

Lemma cont_count h s F R B X G k b a i d h1 :
  lists h F R B X -> geo h -> cont h s F G -> nth_error s k = Some b -> alive b -> In a F -> nth_error G k = Some (a, pg_id (h_page h a)) ->
  0 <= i < pg_occ (h_page h a) -> b_addr b = chunk_at h a i + 40 -> h_hdr h (chunk_at h a i) = Some (MkHdr (b_refs b) (b_size b) (b_onFree b) (b_stack b)) ->
  (d = 1 \/ d = -1) -> pg_ref (h_page h a) + d <= INT_MAX ->
  (forall x, pg_id (h_page h1 x) = pg_id (h_page h x) /\ pg_num (h_page h1 x) = pg_num (h_page h x) /\ pg_occ (h_page h1 x) = pg_occ (h_page h x) /\ pg_chunk (h_page h1 x) = pg_chunk (h_page h x)) ->
  (forall x, pg_ref (h_page h1 x) = pg_ref (h_page h x) + (if x =? a then d else 0)) ->
  (forall x, pg_onf (h_page h1 x) = pg_onf (h_page h x) - (if (x =? a) && negb (b_onFree b =? 0) && (b_refs b =? 1) && (d =? -1) then 1 else 0)) ->
  (forall y, h_hdr h1 y = if y =? chunk_at h a i then Some (MkHdr (b_refs b + d) (b_size b) (b_onFree b) (b_stack b)) else h_hdr h y) ->
  h_free h1 = h_free h -> cont h1 (count_ref s k d) F G.
Proof.
  intros L Hg C Hk Hal Ha HG Hi HA HH Hd HM P PR PO HE EF. unfold alive in Hal.
  assert (K : forall x j, chunk_at h1 x j = chunk_at h x j) by (intros x j; unfold chunk_at; destruct (P x) as (_ & _ & _ & ->); reflexivity).
  assert (OCC : forall x, In x F -> 0 <= pg_occ (h_page h x) <= pg_num (h_page h x)) by (intros x Hx; apply (c_page _ _ _ _ C x Hx)).
  assert (INJ : forall x j, In x F -> 0 <= j < pg_occ (h_page h x) -> chunk_at h x j = chunk_at h a i -> x = a /\ j = i).
  { intros x j Hx Hj E. pose proof (OCC x Hx). pose proof (OCC a Ha). apply (chunk_inj _ _ _ _ _ _ _ _ _ L Hg Hx Ha); [lia|lia|exact E]. }
  assert (RA : ref_at h (chunk_at h a i) = b_refs b) by (unfold ref_at; rewrite HH; reflexivity).
  assert (SUM : forall x, In x F -> refs h1 x = refs h x + (if x =? a then d else 0)).
  { intros x Hx. unfold refs. destruct (P x) as (_ & _ & -> & _). pose proof (OCC x Hx). destruct (x =? a) eqn:E.
    - assert (x = a) by lia. subst x. rewrite (zsum_upd (fun j => ref_at h (chunk_at h a j)) _ _ i).
      + rewrite K. unfold ref_at at 2. rewrite HE, Z.eqb_refl. cbn [hd_ref]. rewrite RA. lia.
      + lia.
      + intros j Hj Hne. rewrite K. unfold ref_at. rewrite HE. destruct (chunk_at h a j =? chunk_at h a i) eqn:E2; [|reflexivity]. exfalso. destruct (INJ a j Ha ltac:(lia) ltac:(lia)). congruence.
    - rewrite Z.add_0_r. apply zsum_ext. intros j Hj. rewrite K. unfold ref_at. rewrite HE. destruct (chunk_at h x j =? chunk_at h a i) eqn:E2; [|reflexivity]. exfalso. destruct (INJ x j Hx ltac:(lia) ltac:(lia)). lia. }
  assert (SUMO : forall x, In x F -> onfs h1 x = onfs h x - (if (x =? a) && negb (b_onFree b =? 0) && (b_refs b =? 1) && (d =? -1) then 1 else 0)).
  { intros x Hx. unfold onfs. destruct (P x) as (_ & _ & -> & _). pose proof (OCC x Hx). destruct (x =? a) eqn:E.
    - assert (x = a) by lia. subst x. rewrite (zsum_upd (fun j => onf_at h (chunk_at h a j)) _ _ i).
      + rewrite K. unfold onf_at at 2 3. rewrite HE, Z.eqb_refl, HH. cbn [hd_ref hd_onFree andb]. destruct (b_onFree b =? 0), (b_refs b =? 1) eqn:?, (d =? -1) eqn:?, (0 <? b_refs b + d) eqn:?, (0 <? b_refs b) eqn:?; cbn [andb negb]; lia.
      + lia.
      + intros j Hj Hne. rewrite K. unfold onf_at. rewrite HE. destruct (chunk_at h a j =? chunk_at h a i) eqn:E2; [|reflexivity]. exfalso. destruct (INJ a j Ha ltac:(lia) ltac:(lia)). congruence.
    - cbn [andb]. rewrite Z.sub_0_r. apply zsum_ext. intros j Hj. rewrite K. unfold onf_at. rewrite HE. destruct (chunk_at h x j =? chunk_at h a i) eqn:E2; [|reflexivity]. exfalso. destruct (INJ x j Hx ltac:(lia) ltac:(lia)). lia. }
  constructor.
  - rewrite EF. apply (c_free _ _ _ _ C).
  - intros x Hx. destruct (c_page _ _ _ _ C x Hx) as (Q1 & Q2 & Q3 & Q4 & Q5). rewrite EF, PR, PO, (SUM x Hx), (SUMO x Hx), Q3, Q4. destruct (P x) as (-> & -> & -> & _).
    split; [exact Q1|]. split; [exact Q2|]. split; [reflexivity|]. split; [reflexivity|]. rewrite <- Q3. destruct (x =? a) eqn:E; [|lia]. assert (x = a) by lia. subst x. exact HM.
  - intros x y Hx Hy. destruct (P x) as (-> & _). destruct (P y) as (-> & _). apply (c_ids _ _ _ _ C); assumption.
  - intros x j Hx Hj. destruct (P x) as (_ & _ & Po & _). rewrite Po in Hj. rewrite K, HE. destruct (chunk_at h x j =? chunk_at h a i) eqn:E.
    + eexists. split; [reflexivity|]. cbn [hd_ref]. split; [lia|]. intro Hpos. exists k, (add_ref b d). rewrite nth_count, Nat.eqb_refl, Hk. split; [reflexivity|]. split; [exact Hpos|]. cbn [add_ref b_addr]. lia.
    + destruct (c_chunk _ _ _ _ C x j Hx Hj) as (c & Hc & Hc0 & Hc1). exists c. split; [exact Hc|]. split; [exact Hc0|]. intro Hpos. destruct (Hc1 Hpos) as (k2 & b2 & Hk2 & Hal2 & HA2).
      exists k2, b2. rewrite nth_count. destruct (Nat.eqb k2 k) eqn:E2; [|auto]. apply Nat.eqb_eq in E2. subst k2. exfalso. rewrite Hk in Hk2. injection Hk2 as <-. lia.
  - intros k2 b2 Hk2. rewrite nth_count in Hk2. destruct (Nat.eqb k2 k) eqn:E2.
    + apply Nat.eqb_eq in E2. subst k2. rewrite Hk in Hk2. cbn in Hk2. injection Hk2 as <-. exists a, (pg_id (h_page h a)). split; [exact HG|].
      destruct (c_block _ _ _ _ C k b Hk) as (a0 & id0 & B1 & B2 & B3 & B4 & B5 & B6). rewrite HG in B1. injection B1 as <- <-. rewrite EF. split; [exact B2|]. cbn [add_ref b_refs b_size b_addr b_onFree b_stack].
      split; [lia|]. split; [exact B4|]. destruct (P a) as (-> & _ & -> & ->). split; [auto|].
      intros a' Ha'. destruct (P a') as (-> & _). intro Hid. assert (a' = a) by (apply (c_ids _ _ _ _ C); assumption). subst a'. split; [reflexivity|]. exists i. rewrite K, HE, Z.eqb_refl.
      destruct (B6 a Ha eq_refl) as (_ & i0 & _ & _ & _ & B7). auto.
    + destruct (c_block _ _ _ _ C k2 b2 Hk2) as (a2 & id2 & B1 & B2 & B3 & B4 & B5 & B6). exists a2, id2. rewrite EF. split; [exact B1|]. split; [exact B2|]. split; [exact B3|]. split; [exact B4|].
      destruct (P a2) as (-> & _ & -> & ->). split; [exact B5|]. intros a' Ha'. destruct (P a') as (-> & _). intro Hid. destruct (B6 a' Ha' Hid) as (-> & i2 & Hi2 & HA2 & HH2 & HS2). split; [reflexivity|].
      exists i2. rewrite K, HE. split; [exact Hi2|]. split; [exact HA2|]. split; [|exact HS2]. destruct (chunk_at h a2 i2 =? chunk_at h a i) eqn:E; [|exact HH2]. exfalso.
      destruct (INJ a2 i2 Ha' Hi2 ltac:(lia)) as [-> ->]. assert (k2 = k); [|subst k2; rewrite Nat.eqb_refl in E2; discriminate].
      apply (c_uniq _ _ _ _ C k2 k b2 b Hk2 Hk); [rewrite B1, HG, Hid; reflexivity|lia].
  - intros k1 k2 b1 b2 H1 H2 HGG HAA. rewrite nth_count in H1, H2.
    assert (Q : forall k' b', (if Nat.eqb k' k then option_map (fun b => add_ref b d) (nth_error s k') else nth_error s k') = Some b' -> exists b0, nth_error s k' = Some b0 /\ b_addr b0 = b_addr b').
    { intros k' b'. destruct (Nat.eqb k' k); [|eauto]. destruct (nth_error s k') as [b0|]; cbn; [|discriminate]. injection 1 as <-. exists b0. auto. }
    destruct (Q _ _ H1) as (c1 & N1 & M1). destruct (Q _ _ H2) as (c2 & N2 & M2). apply (c_uniq _ _ _ _ C k1 k2 c1 c2 N1 N2 HGG). congruence.
  - rewrite count_len. apply (c_len _ _ _ _ C).
Qed.

Lemma owner_spec s : forall p k, owner s p = Some k -> exists b, nth_error s k = Some b /\ alive b /\ within p b.
Proof.
  induction s as [|b s IH]; intros p k H; cbn in H; [discriminate|]. destruct (aliveb b && withinb p b) eqn:E.
  - injection H as <-. exists b. apply andb_true_iff in E as [E1 E2]. unfold aliveb, withinb in *. unfold alive, within. split; [reflexivity|lia].
  - destruct (owner s p) as [j|] eqn:EO; cbn in H; [|discriminate]. injection H as <-. apply (IH p j EO).
Qed.
Lemma page_alive h s F R B X G k b : lists h F R B X -> geo h -> cont h s F G -> nth_error s k = Some b -> alive b -> forall a id, nth_error G k = Some (a, id) -> 0 < pg_ref (h_page h a).
Proof.
  intros L Hg C Hk Hal a id HG. destruct (block_place _ _ _ _ _ _ _ _ _ L Hg C Hk Hal) as (a' & i & Ha & HG' & Hi & HA & HH & _). rewrite HG in HG'. injection HG' as <- ->.
  destruct (c_page _ _ _ _ C a Ha) as (_ & Ho & -> & _). unfold refs. assert (ref_at h (chunk_at h a i) = b_refs b) by (unfold ref_at; rewrite HH; reflexivity).
  pose proof (zsum_le (fun i => ref_at h (chunk_at h a i)) (Z.to_nat (pg_occ (h_page h a))) i) as Q. cbv beta in Q. rewrite H in Q. unfold alive in Hal.
  assert (b_refs b <= zsum (fun i : Z => ref_at h (chunk_at h a i)) (Z.to_nat (pg_occ (h_page h a)))); [apply Q; [|lia]|lia].
  intros j Hj. destruct (c_chunk _ _ _ _ C a j Ha ltac:(lia)) as (c & Hc & Hc0 & _). unfold ref_at. rewrite Hc. exact Hc0.
Qed.
Definition calls_for (b : block) (p d : Z) : list (Z * Z) := if negb (b_onFree b =? 0) && (b_refs b =? 1) && (d =? -1) then [(b_onFree b, p)] else [].
Lemma inv_last h s F R B G a : inv h s F R B G -> In a F -> inv (set_last h a) s F R B G.
Proof.
  intros (L & Hg & Hr & C & U) Ha. split; [destruct L; constructor; assumption|]. split; [destruct Hg; constructor; assumption|]. split; [split; [right; exact Ha|apply Hr]|].
  split; [destruct C; constructor; assumption|exact U].
Qed.
Lemma refcnt_ok h s F R B G k b p a i d : inv h s F R B G -> nth_error s k = Some b -> alive b -> In a F -> nth_error G k = Some (a, pg_id (h_page h a)) ->
  0 <= i < pg_occ (h_page h a) -> b_addr b = chunk_at h a i + 40 -> h_hdr h (chunk_at h a i) = Some (MkHdr (b_refs b) (b_size b) (b_onFree b) (b_stack b)) ->
  pageGetChunk h a p = chunk_at h a i -> (d = 1 \/ d = -1) ->
  if pg_ref (h_page h a) + d <=? INT_MAX
  then exists h' r F' R' B', chunkRefCnt h a p d = Ok (h', r, calls_for b p d) /\ inv h' (count_ref s k d) F' R' B' G /\ incl F' F /\
    h_mem h' = h_mem h /\ h_temps h' = h_temps h /\ h_blocks h' = h_blocks h /\ h_total h' = h_total h /\
    (forall x, pg_chunk (h_page h' x) = pg_chunk (h_page h x) /\ pg_num (h_page h' x) = pg_num (h_page h x)) /\
    (forall x, In x R' -> In x R \/ pageMayBeReferencedByTemporaries h x = false)
  else chunkRefCnt h a p d = UB.
Proof.
  intros (L & Hg & Hr & C & U) Hk Hal Ha HG Hi HA HH HGC Hd.
  destruct (c_page _ _ _ _ C a Ha) as (Q1 & Q2 & Q3 & Q4 & Q5). pose proof (page_alive _ _ _ _ _ _ _ _ _ L Hg C Hk Hal _ _ HG) as Hpos.
  assert (Hle : b_refs b <= pg_ref (h_page h a)).
  { rewrite Q3. unfold refs. assert (E : ref_at h (chunk_at h a i) = b_refs b) by (unfold ref_at; rewrite HH; reflexivity). rewrite <- E.
    apply (zsum_le (fun i => ref_at h (chunk_at h a i)) _ i); [|lia]. intros j Hj. destruct (c_chunk _ _ _ _ C a j Ha ltac:(lia)) as (c & Hc & Hc0 & _). unfold ref_at. rewrite Hc. exact Hc0. }
  unfold alive in Hal. unfold chunkRefCnt. rewrite HGC, HH. cbn [hd_ref hd_onFree hd_size hd_stack].
  replace ((b_refs b <=? 0) || (pg_ref (h_page h a) <? b_refs b)) with false by lia. unfold calls_for.
  set (call := negb (b_onFree b =? 0) && (b_refs b =? 1) && (d =? -1)).
  assert (IM : INT_MAX = 2147483647) by reflexivity.
  destruct (pg_ref (h_page h a) + d <=? INT_MAX) eqn:EO.
  2:{ assert (Q : pg_ref (h_page h a) = INT_MAX /\ d = 1) by lia. destruct Q as [Q6 ->]. unfold chk32. fold INT_MAX. destruct ((INT_MIN <=? b_refs b + 1) && (b_refs b + 1 <=? INT_MAX)); cbn [bind]; [|reflexivity].
      assert (E1 : pg_ref (h_page (set_hdr (if call then modify h a (fun p0 => with_onf p0 (pg_onf p0 - 1)) else h) (chunk_at h a i) (MkHdr (b_refs b + 1) (b_size b) (b_onFree b) (b_stack b))) a) = pg_ref (h_page h a)).
      { cbn [set_hdr h_page]. destruct call; [|reflexivity]. unfold modify, set_page. cbn [h_page]. rewrite Z.eqb_refl. reflexivity. }
      rewrite E1, Q6. destruct ((INT_MIN <=? INT_MAX + 1) && (INT_MAX + 1 <=? INT_MAX)) eqn:E; [lia|]. reflexivity. }
  assert (K1 : chk32 (b_refs b + d) = Ok (b_refs b + d)) by (unfold chk32, INT_MIN, INT_MAX in *; rewrite (proj2 (andb_true_iff _ _)); [reflexivity|lia]).
  rewrite K1. cbn [bind]. set (h0 := if call then modify h a (fun p0 => with_onf p0 (pg_onf p0 - 1)) else h). set (h1 := set_hdr h0 _ _).
  assert (PR1 : pg_ref (h_page h1 a) = pg_ref (h_page h a)) by (unfold h1, h0; cbn [set_hdr h_page]; destruct call; [unfold modify, set_page; cbn [h_page]; rewrite Z.eqb_refl; reflexivity|reflexivity]).
  rewrite PR1. assert (K2 : chk32 (pg_ref (h_page h a) + d) = Ok (pg_ref (h_page h a) + d)) by (unfold chk32, INT_MIN, INT_MAX in *; rewrite (proj2 (andb_true_iff _ _)); [reflexivity|lia]).
  rewrite K2. cbn [bind]. set (h2 := modify h1 a (fun p0 => with_ref p0 (pg_ref (h_page h a) + d))).
  assert (P0 : forall x, h_page h0 x = if (x =? a) && call then with_onf (h_page h x) (pg_onf (h_page h x) - 1) else h_page h x).
  { intro x. unfold h0. destruct call; [|rewrite andb_false_r; reflexivity]. rewrite andb_true_r. unfold modify, set_page. cbn [h_page]. destruct (x =? a) eqn:E; [|reflexivity]. replace x with a by lia. reflexivity. }
  assert (P2 : forall x, h_page h2 x = if x =? a then with_ref (h_page h0 x) (pg_ref (h_page h a) + d) else h_page h0 x).
  { intro x. unfold h2, h1, modify, set_page. cbn [h_page set_hdr]. destruct (x =? a) eqn:E; [|reflexivity]. replace x with a by lia. reflexivity. }
  assert (PF : forall x, pg_id (h_page h2 x) = pg_id (h_page h x) /\ pg_num (h_page h2 x) = pg_num (h_page h x) /\ pg_occ (h_page h2 x) = pg_occ (h_page h x) /\ pg_chunk (h_page h2 x) = pg_chunk (h_page h x)
     /\ pg_end (h_page h2 x) = pg_end (h_page h x) /\ nx h2 x = nx h x /\ pv h2 x = pv h x).
  { intro x. unfold nx, pv. rewrite P2, P0. destruct (x =? a), call; cbn; auto 10. }
  assert (R2 : h_mem h2 = h_mem h /\ h_temps h2 = h_temps h /\ h_blocks h2 = h_blocks h /\ h_total h2 = h_total h /\ h_free h2 = h_free h /\ h_first h2 = h_first h /\ h_recycled h2 = h_recycled h /\
     h_black h2 = h_black h /\ h_last h2 = h_last h /\ h_low h2 = h_low h /\ h_high h2 = h_high h) by (unfold h2, h1, h0; destruct call; cbn; auto 20).
  destruct R2 as (Rm & Rt & Rb & Rtot & Rf & Rfi & Rre & Rbl & Rla & Rlo & Rhi).
  assert (C2 : cont h2 (count_ref s k d) F G).
  { apply (cont_count h s F R B [] G k b a i d h2 L Hg C Hk Hal Ha HG Hi HA HH Hd); try assumption.
    - lia.
    - intro x. destruct (PF x) as (? & ? & ? & ? & _). auto.
    - intro x. rewrite P2, P0. destruct (x =? a) eqn:E; [replace x with a by lia; destruct call; reflexivity|]. cbn [andb]. lia.
    - intro x. rewrite P2, P0. rewrite <- !andb_assoc. rewrite (andb_assoc (negb _)). fold call. destruct (x =? a), call; cbn; lia.
    - intro y. unfold h2, h1, h0. destruct call; reflexivity. }
  assert (L2 : lists h2 F R B []).
  { destruct L as [l1 l2 l3 l4 l5 l6 l7]. constructor; [|congruence| |congruence| |congruence|rewrite Rb; exact l7].
    - apply (dseg_ext (nx h) (pv h)); [intros x _; apply PF|exact l1].
    - apply (sseg_ext (nx h)); [intros x _; apply PF|exact l3].
    - apply (dseg_ext (nx h) (pv h)); [intros x _; apply PF|exact l5]. }
  assert (Hg2 : geo h2).
  { destruct Hg as [g1 g2 g3 g4]. constructor; rewrite ?Rb, ?Rtot; try assumption. intros x n Hx. unfold page_size. destruct (PF x) as (_ & -> & _ & -> & -> & _). apply g2. exact Hx. }
  assert (Hr2 : rng h2 F).
  { destruct Hr as (r1 & r2 & r3). split; [rewrite Rla; exact r1|]. split; [|rewrite Rlo; exact r3]. intros x Hx. destruct (PF x) as (_ & _ & _ & _ & -> & _). rewrite Rlo, Rhi. apply r2. exact Hx. }
  assert (MAY : forall x, pageMayBeReferencedByTemporaries h2 x = pageMayBeReferencedByTemporaries h x) by (intro x; unfold pageMayBeReferencedByTemporaries; destruct (PF x) as (_ & _ & _ & _ & -> & _); rewrite Rt; reflexivity).
  assert (PREF : forall x, pg_ref (h_page h2 x) = if x =? a then pg_ref (h_page h a) + d else pg_ref (h_page h x)) by (intro x; rewrite P2, P0; destruct (x =? a), call; reflexivity).
  destruct (pg_ref (h_page h a) + d =? 0) eqn:EZ.
  - destruct (in_split a F Ha) as (l1 & l2 & ->). rewrite MAY.
    destruct (pageRemove_ok h2 l1 a l2 R B (pageMayBeReferencedByTemporaries h a) L2 Hg2 Hr2) as (h' & R' & B' & E & L3 & Hg3 & Hr3 & S3 & RR3 & T3); [intro Q; rewrite MAY; exact Q|].
    rewrite E. cbn [bind]. exists h', 0, (l1 ++ l2), R', B'. split; [reflexivity|].
    assert (INC : incl (l1 ++ l2) (l1 ++ a :: l2)) by (intros x Hx; rewrite !in_app_iff in *; cbn; tauto).
    assert (NDF : NoDup (l1 ++ a :: l2)) by (destruct (lists_sep _ _ _ _ _ L2 Hg2) as (Y & _); exact Y).
    destruct RR3 as (Xh & Xm & Xb & Xl & Xhi & Xf & Xt & Xte).
    split; [|split; [exact INC|split; [congruence|split; [congruence|split; [congruence|split; [congruence|split; [|intros x Hx; rewrite <- MAY; apply T3, Hx]]]]]]].
    + split; [exact L3|]. split; [exact Hg3|]. split; [exact Hr3|]. split.
      * apply (cont_same h2 h' (count_ref s k d) (l1 ++ a :: l2)); try assumption. intros x k2 b2 id2 Hx Hk2 Hal2 HG2.
        destruct (Z.eq_dec x a) as [->|Hne]; [|rewrite !in_app_iff in *; cbn in Hx; destruct Hx as [?|[?|?]]; [auto|congruence|auto]].
        pose proof (page_alive _ _ _ _ _ _ _ _ _ L2 Hg2 C2 Hk2 Hal2 _ _ HG2) as Y. rewrite PREF, Z.eqb_refl in Y. lia.
      * apply (used_sub h2); [exact S3|]. intros x Hx. rewrite PREF. destruct (x =? a) eqn:Ex; [exfalso; apply NoDup_remove_2 in NDF; apply NDF; replace a with x by lia; exact Hx|apply U, INC, Hx].
    + intro x. destruct (pay_fields _ _ (S3 x)) as (_ & _ & -> & _ & _ & -> & _). destruct (PF x) as (_ & -> & _ & -> & _). auto.
  - exists h2, (b_refs b + d), F, R, B. split; [reflexivity|]. split; [|split; [apply incl_refl|split; [exact Rm|split; [exact Rt|split; [exact Rb|split; [exact Rtot|split; [|auto]]]]]]].
    + split; [exact L2|]. split; [exact Hg2|]. split; [exact Hr2|]. split; [exact C2|]. intros x Hx. rewrite PREF. destruct (x =? a) eqn:E; [lia|apply U; exact Hx].
    + intro x. destruct (PF x) as (_ & -> & _ & -> & _). auto.
Qed.

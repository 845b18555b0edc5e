From Coq Require Import ZArith Lia Bool List ZifyBool Permutation.
From Verif Require Import Base MemModel BlkModel CmpModel HeapModel HeapSpec HeapProofs HeapLists HeapOps.
Import ListNotations.
Local Open Scope Z_scope.
Ltac Zify.zify_post_hook ::= Z.div_mod_to_equations.

(** * Allocation *)
Lemma chk32_inv x y : chk32 x = Ok y -> y = x /\ INT_MIN <= x <= INT_MAX.
Proof. unfold chk32. destruct ((INT_MIN <=? x) && (x <=? INT_MAX)) eqn:E; [|discriminate]. injection 1 as <-. split; [reflexivity|lia]. Qed.
Lemma cont_alloc h s F R B X G a size f st h1 :
  lists h F R B X -> geo h -> cont h s F G -> In a F -> pg_occ (h_page h a) < pg_num (h_page h a) -> 0 <= size -> 41 + size <= pg_chunk (h_page h a) ->
  pg_ref (h_page h a) + 1 <= INT_MAX ->
  (forall x, pg_id (h_page h1 x) = pg_id (h_page h x) /\ pg_num (h_page h1 x) = pg_num (h_page h x) /\ pg_chunk (h_page h1 x) = pg_chunk (h_page h x)) ->
  (forall x, pg_occ (h_page h1 x) = pg_occ (h_page h x) + (if x =? a then 1 else 0)) ->
  (forall x, pg_ref (h_page h1 x) = pg_ref (h_page h x) + (if x =? a then 1 else 0)) ->
  (forall x, pg_onf (h_page h1 x) = pg_onf (h_page h x) + (if (x =? a) && negb (f =? 0) then 1 else 0)) ->
  (forall y, h_hdr h1 y = if y =? chunk_at h a (pg_occ (h_page h a)) then Some (MkHdr 1 size f st) else h_hdr h y) ->
  h_free h1 = h_free h ->
  cont h1 (s ++ [MkB (chunk_at h a (pg_occ (h_page h a)) + 40) size 1 f st]) F (G ++ [(a, pg_id (h_page h a))]).
Proof.
  intros L Hg C Ha Hocc Hs Hc HM P PO PR PN HE EF. set (o := pg_occ (h_page h a)) in *.
  assert (K : forall x j, chunk_at h1 x j = chunk_at h x j) by (intros x j; unfold chunk_at; destruct (P x) as (_ & _ & ->); reflexivity).
  assert (OCC : forall x, In x F -> 0 <= pg_occ (h_page h x) <= pg_num (h_page h x)) by (intros x Hx; apply (c_page _ _ _ _ C x Hx)).
  pose proof (OCC a Ha) as Oa. fold o in Oa.
  assert (NEW : forall x j, In x F -> 0 <= j < pg_occ (h_page h x) -> chunk_at h x j =? chunk_at h a o = false).
  { intros x j Hx Hj. pose proof (OCC x Hx). destruct (chunk_at h x j =? chunk_at h a o) eqn:E; [|reflexivity]. exfalso.
    destruct (chunk_inj _ _ _ _ _ x a j o L Hg Hx Ha) as [-> ->]; [lia|lia|lia|]. unfold o in Hj. lia. }
  assert (LEN := c_len _ _ _ _ C).
  assert (OLD : forall k b, nth_error (s ++ [MkB (chunk_at h a o + 40) size 1 f st]) k = Some b -> (nth_error s k = Some b /\ nth_error (G ++ [(a, pg_id (h_page h a))]) k = nth_error G k) \/
     (k = length s /\ b = MkB (chunk_at h a o + 40) size 1 f st /\ nth_error (G ++ [(a, pg_id (h_page h a))]) k = Some (a, pg_id (h_page h a)))).
  { intros k b Hk. destruct (Nat.lt_ge_cases k (length s)) as [Hl|Hl].
    - rewrite nth_error_app1 in Hk by exact Hl. left. split; [exact Hk|]. rewrite nth_error_app1; [reflexivity|lia].
    - right. rewrite nth_error_app2 in Hk by exact Hl. destruct (k - length s)%nat as [|n] eqn:En; [|destruct n; discriminate]. cbn in Hk. injection Hk as <-.
      split; [lia|]. split; [reflexivity|]. rewrite nth_error_app2 by lia. replace (k - length G)%nat with 0%nat by lia. reflexivity. }
  constructor.
  - rewrite EF. apply (c_free _ _ _ _ C).
  - intros x Hx. destruct (c_page _ _ _ _ C x Hx) as (Q1 & Q2 & Q3 & Q4 & Q5). destruct (P x) as (-> & -> & _). rewrite EF, PO, PR, PN. split; [exact Q1|].
    destruct (x =? a) eqn:E.
    + assert (x = a) by lia. subst x. fold o in Q2 |- *. split; [lia|]. unfold refs, onfs. rewrite PO, Z.eqb_refl. fold o. replace (Z.to_nat (o + 1)) with (S (Z.to_nat o)) by lia. cbn [zsum]. rewrite Z2Nat.id by lia.
      split; [|split; [|lia]].
      * rewrite Q3. unfold refs. fold o. f_equal; [|rewrite K; unfold ref_at; rewrite HE, Z.eqb_refl; reflexivity]. apply zsum_ext. intros j Hj. rewrite K. unfold ref_at. rewrite HE, NEW; [reflexivity|exact Ha|fold o; lia].
      * rewrite Q4. unfold onfs. fold o. f_equal; [|rewrite K; unfold onf_at; rewrite HE, Z.eqb_refl; cbn; reflexivity]. apply zsum_ext. intros j Hj. rewrite K. unfold onf_at. rewrite HE, NEW; [reflexivity|exact Ha|fold o; lia].
    + cbn [andb]. rewrite !Z.add_0_r. split; [exact Q2|]. unfold refs, onfs. rewrite PO, E, Z.add_0_r. split; [|split; [|exact Q5]].
      * rewrite Q3. apply zsum_ext. intros j Hj. rewrite K. unfold ref_at. rewrite HE, NEW; [reflexivity|exact Hx|lia].
      * rewrite Q4. apply zsum_ext. intros j Hj. rewrite K. unfold onf_at. rewrite HE, NEW; [reflexivity|exact Hx|lia].
  - intros x y Hx Hy. destruct (P x) as (-> & _). destruct (P y) as (-> & _). apply (c_ids _ _ _ _ C); assumption.
  - intros x j Hx Hj. rewrite K, HE. rewrite PO in Hj. destruct (chunk_at h x j =? chunk_at h a o) eqn:E.
    + eexists. split; [reflexivity|]. split; [cbn; lia|]. intros _. exists (length s). eexists. rewrite nth_error_app2, Nat.sub_diag by lia. cbn. split; [reflexivity|]. unfold alive. cbn. lia.
    + assert (Hj' : 0 <= j < pg_occ (h_page h x)).
      { destruct (x =? a) eqn:Ex; [|lia]. assert (x = a) by lia. subst x. destruct (Z.eq_dec j o) as [->|]; [lia|]. fold o in Hj |- *. lia. }
      destruct (c_chunk _ _ _ _ C x j Hx Hj') as (c & Hcc & Hc0 & Hc1). exists c. split; [exact Hcc|]. split; [exact Hc0|]. intro Hp. destruct (Hc1 Hp) as (k & b & Hk & Hb). exists k, b.
      split; [|exact Hb]. rewrite nth_error_app1; [exact Hk|]. apply nth_error_Some. congruence.
  - intros k b Hk. destruct (OLD k b Hk) as [[Hk0 HG0]|(-> & -> & HG0)].
    + destruct (c_block _ _ _ _ C k b Hk0) as (a2 & id2 & B1 & B2 & B3 & B4 & B5 & B6). exists a2, id2. rewrite HG0, EF. split; [exact B1|]. split; [exact B2|]. split; [exact B3|]. split; [exact B4|].
      destruct (P a2) as (-> & _ & ->). split; [exact B5|]. intros a' Ha'. destruct (P a') as (-> & _). intro Hid. destruct (B6 a' Ha' Hid) as (-> & i2 & Hi2 & HA2 & HH2 & HS2). split; [reflexivity|].
      exists i2. rewrite K, HE, PO, NEW by assumption. split; [destruct (a2 =? a); lia|auto].
    + exists a, (pg_id (h_page h a)). rewrite EF. cbn [b_refs b_size b_addr b_onFree b_stack]. split; [exact HG0|]. split; [apply (c_page _ _ _ _ C a Ha)|]. split; [lia|]. split; [exact Hs|].
      destruct (P a) as (-> & _ & ->). split; [auto|]. intros a' Ha'. destruct (P a') as (-> & _). intro Hid. assert (a' = a) by (apply (c_ids _ _ _ _ C); assumption). subst a'. split; [reflexivity|].
      exists o. rewrite K, HE, PO, !Z.eqb_refl. fold o. split; [lia|auto].
  - intros k1 k2 b1 b2 H1 H2 HGG HAA. destruct (OLD k1 b1 H1) as [[K1 G1]|(-> & -> & G1)]; destruct (OLD k2 b2 H2) as [[K2 G2]|(-> & -> & G2)]; rewrite ?G1, ?G2 in HGG.
    + apply (c_uniq _ _ _ _ C k1 k2 b1 b2 K1 K2 HGG HAA).
    + exfalso. destruct (c_block _ _ _ _ C k1 b1 K1) as (a2 & id2 & B1 & B2 & B3 & B4 & B5 & B6). rewrite HGG in B1. injection B1 as <- <-. destruct (B6 a Ha eq_refl) as (_ & i2 & Hi2 & HA2 & _).
      cbn in HAA. pose proof (NEW a i2 Ha Hi2). lia.
    + exfalso. destruct (c_block _ _ _ _ C k2 b2 K2) as (a2 & id2 & B1 & B2 & B3 & B4 & B5 & B6). rewrite <- HGG in B1. injection B1 as <- <-. destruct (B6 a Ha eq_refl) as (_ & i2 & Hi2 & HA2 & _).
      cbn in HAA. pose proof (NEW a i2 Ha Hi2). lia.
    + reflexivity.
  - rewrite !app_length, LEN. reflexivity.
Qed.

(** ** Dropping and adding pages *)
Lemma drop_in l a x n : In (x, n) (drop_block l a) <-> In (x, n) l /\ x <> a.
Proof. unfold drop_block. rewrite filter_In. cbn. split; intros [H1 H2]; (split; [exact H1|]); lia. Qed.
Lemma drop_fst l a x : In x (map fst (drop_block l a)) <-> In x (map fst l) /\ x <> a.
Proof.
  split.
  - intro H. apply in_map_iff in H as ((y & n) & <- & H). apply drop_in in H as [H1 H2]. split; [apply in_map_iff; exists (y, n); auto|exact H2].
  - intros [H1 H2]. apply in_map_iff in H1 as ((y & n) & <- & H). apply in_map_iff. exists (y, n). split; [reflexivity|]. apply drop_in. auto.
Qed.
Lemma drop_nodup l a : NoDup (map fst l) -> NoDup (map fst (drop_block l a)).
Proof.
  induction l as [|(x & n) l IH]; cbn; intro H; [constructor|]. apply NoDup_cons_iff in H as [H1 H2]. destruct (negb (x =? a)) eqn:E; [|auto]. cbn. constructor; [|auto].
  intro Y. apply drop_fst in Y as [Y _]. contradiction.
Qed.
Lemma drop_held l a n : NoDup (map fst l) -> In (a, n) l -> held (drop_block l a) = held l - n.
Proof.
  induction l as [|(x & m) l IH]; cbn [map fst held drop_block filter]; intros ND H; [destruct H|]. cbn in ND. apply NoDup_cons_iff in ND as [N1 N2].
  destruct H as [H|H].
  - injection H as -> ->. cbn [fst]. rewrite Z.eqb_refl. cbn [negb]. assert (E : filter (fun b => negb (fst b =? a)) l = l); [|rewrite E; lia].
    clear IH N2. induction l as [|(y & k) l IH2]; cbn; [reflexivity|]. cbn in N1. destruct (y =? a) eqn:E; [exfalso; apply N1; left; lia|]. cbn [negb]. rewrite IH2 by tauto. reflexivity.
  - destruct (x =? a) eqn:E; [exfalso; apply N1; replace x with a by lia; apply in_map_iff; exists (a, n); auto|]. cbn [fst]. rewrite ?E. cbn [negb held]. fold (drop_block l a). rewrite IH by assumption. lia.
Qed.
Lemma perm_drop l a F R B : Permutation (map fst l) (F ++ (a :: R) ++ B) -> NoDup (map fst l) -> Permutation (map fst (drop_block l a)) (F ++ R ++ B).
Proof.
  intros P N. assert (N2 : NoDup (F ++ (a :: R) ++ B)) by (eapply Permutation_NoDup; eassumption). cbn [app] in *. apply NoDup_Permutation.
  - apply drop_nodup. exact N.
  - eapply NoDup_remove_1. exact N2.
  - apply NoDup_remove_2 in N2. intro x. rewrite drop_fst. assert (Q : In x (map fst l) <-> In x (F ++ a :: R ++ B)) by (split; apply Permutation_in; [|symmetry]; exact P). rewrite Q, !in_app_iff in *. cbn. rewrite in_app_iff in *. split.
    + intros [[H|[H|H]] Hn]; [auto|congruence|auto].
    + intro H. split; [tauto|]. intros ->. tauto.
Qed.
Definition same_most (h h' : heap) : Prop :=
  h_page h' = h_page h /\ h_hdr h' = h_hdr h /\ h_mem h' = h_mem h /\ h_low h' = h_low h /\ h_high h' = h_high h /\ h_free h' = h_free h /\ h_temps h' = h_temps h /\
  h_last h' = h_last h /\ h_first h' = h_first h.
Lemma findRecycled_ok size : 0 < size -> forall R fuel h F B, lists h F R B [] -> geo h -> (length R < fuel)%nat ->
  exists h' a R', pageFindRecycled fuel h size = Ok (h', a) /\ ((a = 0 /\ lists h' F R' B []) \/ (a <> 0 /\ lists h' F R' B [a] /\ size <= page_size (h_page h' a))) /\
    geo h' /\ same_most h h' /\ incl R' R /\ incl (h_blocks h') (h_blocks h).
Proof.
  intro Hsz. induction R as [|a R IH]; intros fuel h F B L Hg Hf; (destruct fuel as [|fuel]; [cbn in Hf; lia|]); cbn [pageFindRecycled]; pose proof (l_rec _ _ _ _ _ L) as Hrec; cbn [hd] in Hrec; rewrite Hrec.
  - exists h, 0, []. cbn [Z.eqb]. split; [reflexivity|]. split; [left; auto|]. split; [exact Hg|]. split; [unfold same_most; auto 20|]. split; apply incl_refl.
  - assert (Ha : HEADER < a) by (apply (lists_pos _ _ _ _ _ _ L Hg); rewrite !in_app_iff; cbn; auto). unfold HEADER in Ha. destruct (a =? 0) eqn:E0; [lia|].
    destruct (lists_in _ _ _ _ _ a L) as (n & Hn); [rewrite !in_app_iff; cbn; auto|]. destruct (g_geo _ Hg _ _ Hn) as (_ & _ & _ & _ & Hps & _).
    pose proof (l_R _ _ _ _ _ L) as HR. cbn in HR. destruct HR as [HR1 HR2]. unfold nx in HR1. destruct (size <=? page_size (h_page h a)) eqn:Es.
    + exists (set_recycled h (pg_next (h_page h a))), a, R. split; [reflexivity|]. split; [right; split; [lia|split; [|cbn; lia]]|].
      * destruct L as [l1 l2 l3 l4 l5 l6 l7]. constructor; try assumption. eapply Permutation_trans; [exact l7|]. perm.
      * split; [destruct Hg; constructor; assumption|]. split; [unfold same_most; cbn; auto 20|]. split; [intros x Hx; right; exact Hx|apply incl_refl].
    + set (h1 := set_blocks (set_recycled h (pg_next (h_page h a))) (drop_block (h_blocks (set_recycled h (pg_next (h_page h a)))) a) (h_total (set_recycled h (pg_next (h_page h a))) - page_size (h_page h a))).
      assert (L1 : lists h1 F R B []).
      { destruct L as [l1 l2 l3 l4 l5 l6 l7]. constructor; try assumption. cbn. rewrite !app_nil_r in *. apply perm_drop; [exact l7|exact (g_nodup _ Hg)]. }
      assert (Hg1 : geo h1).
      { destruct Hg as [g1 g2 g3 g4]. constructor.
        - apply drop_nodup. exact g1.
        - intros x m Hx. apply drop_in in Hx as [Hx _]. apply g2. exact Hx.
        - intros x m y k Hx Hy. apply drop_in in Hx as [Hx _]. apply drop_in in Hy as [Hy _]. apply g3; assumption.
        - change (held (drop_block (h_blocks h) a) <= h_total h - page_size (h_page h a)). rewrite (drop_held _ _ n g1 Hn). lia. }
      destruct (IH fuel h1 F B L1 Hg1) as (h' & a' & R' & E & D & G' & SM & I1 & I2); [cbn in Hf; lia|]. exists h', a', R'. split; [exact E|]. split; [exact D|]. split; [exact G'|].
      split; [|split; [intros x Hx; right; apply I1, Hx|intros (x & m) Hx; apply I2 in Hx; apply drop_in in Hx; apply Hx]]. unfold same_most in *. cbn in SM. exact SM.
Qed.
Section Alloc.
Variable malloc : list (Z * Z) -> Z -> option Z.
Hypothesis Hmalloc : malloc_ok malloc.
Lemma pageAdd_ok h s F R B G num chunk h' a :
  inv h s F R B G -> 0 < num -> 0 < chunk -> num * chunk <= INT_MAX -> pageAdd malloc h num chunk = Ok (h', a) ->
  exists R', lists h' (a :: F) R' B [] /\ geo h' /\ rng h' (a :: F) /\ cont h' s (a :: F) G /\ used h' F /\ incl R' R /\ ~ In a F /\
    (pg_occ (h_page h' a) = 0 /\ pg_num (h_page h' a) = num /\ pg_chunk (h_page h' a) = chunk) /\
    h_mem h' = h_mem h /\ h_temps h' = h_temps h /\ (exists n, In (a, n) (h_blocks h')) /\
    (forall x n, In (x, n) (h_blocks h') -> In (x, n) (h_blocks h) \/ x = a) /\
    (forall x, x <> a -> pay (h_page h' x) = pay (h_page h x)).
Proof.
  intros (L & Hg & Hr & C & U) Hn Hc Hs H. unfold pageAdd in H. set (size := num * chunk) in *.
  assert (Hsz : 0 < size) by (apply Z.mul_pos_pos; assumption).
  destruct (findRecycled_ok size Hsz R (walk h) h F B L Hg (walk_len _ _ _ _ _ R L (or_intror (or_introl eq_refl)))) as (h1 & a1 & R' & E & D & Hg1 & SM & I1 & I2).
  rewrite E in H. cbn [bind] in H. destruct SM as (Mp & Mh & Mm & Mlo & Mhi & Mf & Mt & Mla & Mfi).
  assert (H2 : exists h2, (forall x n, In (x, n) (h_blocks h2) -> In (x, n) (h_blocks h) \/ x = a) /\ lists h2 F R' B [a] /\ NoDup (map fst (h_blocks h2)) /\
     (exists n, In (a, n) (h_blocks h2) /\ size <= n /\ HEADER < a /\ a + n < two63) /\ held (h_blocks h2) <= h_total h2 /\
     (forall x n, In (x, n) (h_blocks h2) -> x <> a -> HEADER < x /\ x + n < two63 /\ 0 < pg_chunk (h_page h x) /\ 0 < pg_num (h_page h x) /\
        page_size (h_page h x) <= n /\ page_size (h_page h x) <= INT_MAX /\ pg_end (h_page h x) = x + page_size (h_page h x)) /\
     (forall x n y m, In (x, n) (h_blocks h2) -> In (y, m) (h_blocks h2) -> x <> y -> x + n <= y - HEADER \/ y + m <= x - HEADER) /\
     same_most h h2 /\
     (let* id' := chk32 (h_free h2 + 1) in
      let h3 := set_free h2 id' in
      let h4 := set_page h3 a (MkPage (h_free h2) 0 num 0 0 chunk 0 (h_first h3) (a + size)) in
      let h5 := if h_first h4 =? 0 then h4 else modify h4 (h_first h4) (fun p => with_prev p a) in
      let h6 := set_first h5 a in
      let low := if (h_low h6 =? 0) || (a <? h_low h6) then a else h_low h6 in
      let high := if (h_high h6 =? 0) || (h_high h6 <? a + size) then a + size else h_high h6 in
      Ok (set_last (set_range h6 low high) a, a)) = Ok (h', a)).
  { destruct (a1 =? 0) eqn:E1.
    - destruct D as [[-> L1]|[D _]]; [|lia]. destruct (malloc (h_blocks h1) size) as [a0|] eqn:EM; [|discriminate]. cbn [bind] in H.
      assert (a0 = a).
      { destruct (chk32 (h_free (set_blocks h1 ((a0, size) :: h_blocks h1) (h_total h1 + size)) + 1)) eqn:EE; cbn [bind] in H; try discriminate. apply (f_equal (fun o => match o with Ok (_, x) => x | _ => 0 end)) in H. exact H. }
      subst a0. destruct (Hmalloc _ _ _ EM) as (Q1 & Q2 & Q3). exists (set_blocks h1 ((a, size) :: h_blocks h1) (h_total h1 + size)).
      assert (NI : ~ In a (map fst (h_blocks h1))).
      { intro Y. apply in_map_iff in Y as ((x & m) & Ex & Hx). cbn in Ex. subst x. pose proof (g_geo _ Hg1 _ _ Hx) as (Z1 & Z2 & Z3 & Z4 & Z5 & _). specialize (Q3 _ _ Hx). unfold page_size in Z5. pose proof (Z.mul_pos_pos _ _ Z4 Z3). unfold HEADER in *. lia. }
      split; [|split; [|split; [|split; [|split; [|split; [|split; [|split; [|exact H]]]]]]]].
      + intros x n [Hx|Hx]; [right; congruence|left; apply I2, Hx].
      + destruct L1 as [l1 l2 l3 l4 l5 l6 l7]. constructor; try assumption. cbn. eapply Permutation_trans; [apply perm_skip; exact l7|]. perm.
      + cbn. constructor; [exact NI|exact (g_nodup _ Hg1)].
      + exists size. split; [left; reflexivity|]. lia.
      + cbn. pose proof (g_total _ Hg1). lia.
      + intros x n [Hx|Hx] Hne; [congruence|]. rewrite <- Mp. apply (g_geo _ Hg1). exact Hx.
      + intros x n y m [Hx|Hx] [Hy|Hy] Hne.
        * congruence.
        * injection Hx as <- <-. apply Q3. exact Hy.
        * injection Hy as <- <-. specialize (Q3 _ _ Hx). lia.
        * apply (g_disj _ Hg1); assumption.
      + unfold same_most. cbn. auto 20.
    - destruct D as [[-> L1]|[_ [L1 Hps]]]; [cbn in E1; discriminate|]. cbn [bind] in H.
      assert (a1 = a).
      { destruct (chk32 (h_free h1 + 1)) eqn:EE; cbn [bind] in H; try discriminate. apply (f_equal (fun o => match o with Ok (_, x) => x | _ => 0 end)) in H. exact H. }
      subst a1. exists h1. destruct (lists_in _ _ _ _ _ a L1) as (n & Hna); [rewrite !in_app_iff; cbn; auto|].
      split; [intros x m Hx; left; apply I2, Hx|]. split; [exact L1|]. split; [exact (g_nodup _ Hg1)|].
      split; [exists n; split; [exact Hna|]; pose proof (g_geo _ Hg1 _ _ Hna); lia|]. split; [exact (g_total _ Hg1)|].
      split; [intros x m Hx _; rewrite <- Mp; apply (g_geo _ Hg1); exact Hx|]. split; [exact (g_disj _ Hg1)|]. split; [unfold same_most; auto 20|exact H]. }
  clear H L Hg E D Hg1 Mp Mh Mm Mlo Mhi Mf Mt Mla Mfi I2 h1 a1. destruct H2 as (h2 & I2 & L2 & ND & (n0 & Hn0 & Hn1 & Hn2 & Hn3) & HT & HGE & HD & SM & H).
  destruct SM as (Mp & Mh & Mm & Mlo & Mhi & Mf & Mt & Mla & Mfi).
  destruct (chk32 (h_free h2 + 1)) as [id'| |] eqn:EI; cbn [bind] in H; try discriminate. apply chk32_inv in EI as [-> EI].
  assert (Ha0 : a <> 0) by (unfold HEADER in Hn2; lia).
  assert (Sep : ~ In a F /\ ~ In a R' /\ ~ In a B /\ NoDup F /\ NoDup R' /\ NoDup B /\ ~ In 0 F).
  { pose proof (Permutation_NoDup (l_perm _ _ _ _ _ L2) ND) as N. pose proof (nodup_r _ _ N) as N2. pose proof (nodup_r _ _ N2) as N3.
    assert (A : forall l, NoDup (l ++ [a]) -> ~ In a l) by (intros l Hl Hi; apply (nodup_d _ _ a Hl Hi); left; reflexivity).
    assert (NA : NoDup ((F ++ R' ++ B) ++ [a])) by (rewrite <- !app_assoc; exact N). apply A in NA. rewrite !in_app_iff in NA.
    split; [tauto|]. split; [tauto|]. split; [tauto|]. split; [exact (nodup_l _ _ N)|]. split; [exact (nodup_l _ _ N2)|]. split; [exact (nodup_l _ _ N3)|].
    intro Y. destruct (lists_in _ _ _ _ _ 0 L2) as (m & Hm); [rewrite !in_app_iff; auto|]. destruct (HGE _ _ Hm ltac:(lia)) as (Z1 & _). unfold HEADER in Z1. lia. }
  destruct Sep as (SF & SR & SB & NF & NR & NB & N0).
  set (h5 := if h_first h2 =? 0 then set_page (set_free h2 (h_free h2 + 1)) a (MkPage (h_free h2) 0 num 0 0 chunk 0 (h_first h2) (a + size)) else
     modify (set_page (set_free h2 (h_free h2 + 1)) a (MkPage (h_free h2) 0 num 0 0 chunk 0 (h_first h2) (a + size))) (h_first h2) (fun p => with_prev p a)) in *.
  assert (Rest : h_hdr h5 = h_hdr h2 /\ h_mem h5 = h_mem h2 /\ h_low h5 = h_low h2 /\ h_high h5 = h_high h2 /\ h_free h5 = h_free h2 + 1 /\ h_temps h5 = h_temps h2 /\ h_blocks h5 = h_blocks h2 /\ h_total h5 = h_total h2 /\
     h_recycled h5 = h_recycled h2 /\ h_black h5 = h_black h2) by (unfold h5; destruct (h_first h2 =? 0); cbn; auto 20).
  destruct Rest as (Rh & Rm & Rlo & Rhi & Rf & Rt & Rb & Rto & Rre & Rbl).
  pose proof (l_first _ _ _ _ _ L2) as HF.
  assert (P5 : forall x, h_page h5 x = if x =? a then MkPage (h_free h2) 0 num 0 0 chunk 0 (h_first h2) (a + size) else if (x =? h_first h2) && negb (h_first h2 =? 0) then with_prev (h_page h x) a else h_page h x).
  { intro x. unfold h5. rewrite <- Mp. destruct (h_first h2 =? 0) eqn:E0; cbn [set_page h_page modify set_free].
    - rewrite andb_false_r. reflexivity.
    - rewrite andb_true_r. unfold modify, set_page. cbn [h_page set_free]. destruct (x =? h_first h2) eqn:E2; [|reflexivity].
      assert (Hf : In (h_first h2) F) by (rewrite HF in *; destruct F as [|c F']; [cbn in E0; discriminate|left; reflexivity]).
      destruct (h_first h2 =? a) eqn:E3; [exfalso; apply SF; replace a with (h_first h2) by lia; exact Hf|]. destruct (x =? a) eqn:E4; [lia|]. replace x with (h_first h2) by lia. reflexivity. }
  assert (PAY : forall x, x <> a -> pay (h_page h5 x) = pay (h_page h x)) by (intros x Hx; rewrite P5; destruct (x =? a) eqn:E; [lia|]; destruct ((x =? h_first h2) && negb (h_first h2 =? 0)); reflexivity).
  assert (PAYF : forall x, In x F -> x <> a) by (intros x Hx ->; contradiction).
  match type of H with Ok (?hh, _) = _ => assert (Heq : hh = h') by (apply (f_equal (fun o => match o with Ok (x, _) => x | _ => hh end)) in H; exact H) end. clear H.
  cbn [set_first h_low h_high] in Heq.
  set (low := if (h_low h5 =? 0) || (a <? h_low h5) then a else h_low h5) in *. set (high := if (h_high h5 =? 0) || (h_high h5 <? a + size) then a + size else h_high h5) in *.
  assert (PG : h_page h' = h_page h5) by (rewrite <- Heq; reflexivity).
  assert (Fld : h_hdr h' = h_hdr h5 /\ h_mem h' = h_mem h5 /\ h_low h' = low /\ h_high h' = high /\ h_free h' = h_free h5 /\ h_temps h' = h_temps h5 /\ h_blocks h' = h_blocks h5 /\ h_total h' = h_total h5 /\
     h_recycled h' = h_recycled h5 /\ h_black h' = h_black h5 /\ h_first h' = a /\ h_last h' = a) by (rewrite <- Heq; cbn; auto 20).
  clear Heq. destruct Fld as (Xh & Xm & Xlo & Xhi & Xf & Xt & Xb & Xto & Xre & Xbl & Xfi & Xla).
  assert (N : forall x, nx h' x = if x =? a then h_first h2 else nx h x) by (intro x; unfold nx; rewrite PG, P5; destruct (x =? a); [reflexivity|]; destruct ((x =? h_first h2) && negb (h_first h2 =? 0)); reflexivity).
  assert (V : forall x, pv h' x = if x =? a then 0 else if (x =? h_first h2) && negb (h_first h2 =? 0) then a else pv h x) by (intro x; unfold pv; rewrite PG, P5; destruct (x =? a); [reflexivity|]; destruct ((x =? h_first h2) && negb (h_first h2 =? 0)); reflexivity).
  assert (EN : forall x, nx h2 x = nx h x /\ pv h2 x = pv h x) by (intro x; unfold nx, pv; rewrite Mp; auto).
  assert (NE : forall l x, ~ In a l -> In x l -> nx h' x = nx h2 x) by (intros l x Hl Hx; rewrite N; destruct (x =? a) eqn:E; [exfalso; apply Hl; replace a with x by lia; exact Hx|symmetry; apply EN]).
  assert (VE : forall l x, ~ In a l -> In x l -> x <> hd 0 F -> pv h' x = pv h2 x).
  { intros l x Hl Hx Hn'. rewrite V. destruct (x =? a) eqn:E; [exfalso; apply Hl; replace a with x by lia; exact Hx|]. rewrite HF. destruct (x =? hd 0 F) eqn:E1; [lia|]. symmetry. apply EN. }
  assert (L' : lists h' (a :: F) R' B []).
  { constructor.
    - cbn [dseg]. split; [rewrite V, Z.eqb_refl; reflexivity|]. split; [rewrite N, Z.eqb_refl; exact HF|]. pose proof (l_F _ _ _ _ _ L2) as D. destruct F as [|c F']; [exact I|]. cbn [dseg] in D |- *. destruct D as (D1 & D2 & D3).
      cbn [hd] in HF, VE. apply NoDup_cons_iff in NF as [NF1 NF2]. split; [|split].
      + rewrite V, HF, Z.eqb_refl. destruct (c =? a) eqn:E; [exfalso; apply SF; left; lia|]. destruct (c =? 0) eqn:E2; [exfalso; apply N0; left; lia|reflexivity].
      + rewrite (NE (c :: F') c SF (or_introl eq_refl)). exact D2.
      + apply (dseg_ext (nx h2) (pv h2)); [|exact D3]. intros x Hx. split; [exact (NE (c :: F') x SF (or_intror Hx))|]. apply (VE (c :: F') x SF (or_intror Hx)). intro Y. apply NF1. rewrite <- Y. exact Hx.
    - rewrite Xfi. reflexivity.
    - apply (sseg_ext (nx h2)); [|exact (l_R _ _ _ _ _ L2)]. intros x Hx. exact (NE R' x SR Hx).
    - rewrite Xre, Rre. exact (l_rec _ _ _ _ _ L2).
    - apply (dseg_ext (nx h2) (pv h2)); [|exact (l_B _ _ _ _ _ L2)]. intros x Hx. split; [exact (NE B x SB Hx)|]. apply (VE B x SB Hx). intro Y.
      pose proof (Permutation_NoDup (l_perm _ _ _ _ _ L2) ND) as NN. destruct F as [|c F']; cbn in Y; [subst x; destruct (lists_in _ _ _ _ _ 0 L2) as (m & Hm); [rewrite !in_app_iff; auto|]; destruct (HGE _ _ Hm ltac:(lia)) as (Z1 & _); unfold HEADER in Z1; lia|].
      subst x. apply (nodup_d _ _ c NN); [left; reflexivity|rewrite !in_app_iff; auto].
    - rewrite Xbl, Rbl. exact (l_blk _ _ _ _ _ L2).
    - rewrite Xb, Rb. eapply Permutation_trans; [exact (l_perm _ _ _ _ _ L2)|]. perm. }
  assert (PA : h_page h' a = MkPage (h_free h2) 0 num 0 0 chunk 0 (h_first h2) (a + size)) by (rewrite PG, P5, Z.eqb_refl; reflexivity).
  assert (PF : forall x, x <> a -> pg_id (h_page h' x) = pg_id (h_page h x) /\ pg_ref (h_page h' x) = pg_ref (h_page h x) /\ pg_num (h_page h' x) = pg_num (h_page h x) /\ pg_occ (h_page h' x) = pg_occ (h_page h x) /\
     pg_onf (h_page h' x) = pg_onf (h_page h x) /\ pg_chunk (h_page h' x) = pg_chunk (h_page h x) /\ pg_end (h_page h' x) = pg_end (h_page h x)) by (intros x Hx; apply pay_fields; rewrite PG; apply PAY; exact Hx).
  exists R'. split; [exact L'|]. split; [|split; [|split; [|split; [|split; [exact I1|split; [exact SF|split; [rewrite PA; auto|split; [congruence|split; [congruence|split; [|split]]]]]]]]]].
  - constructor.
    + rewrite Xb, Rb. exact ND.
    + intros x n Hx. rewrite Xb, Rb in Hx. destruct (Z.eq_dec x a) as [->|Hne].
      * assert (n = n0).
        { clear -ND Hx Hn0. revert ND Hx Hn0. generalize (h_blocks h2). induction l as [|(y & m) l IH]; cbn; intros ND H1 H2; [destruct H1|]. apply NoDup_cons_iff in ND as [N1 N2].
          destruct H1 as [H1|H1], H2 as [H2|H2]; [congruence| | |auto]; exfalso; apply N1; apply in_map_iff; [exists (a, n0)|exists (a, n)]; split; auto; cbn; congruence. }
        subst n. rewrite PA. unfold page_size. cbn [pg_chunk pg_num pg_end]. fold size. auto 10.
      * unfold page_size. destruct (PF x Hne) as (_ & _ & -> & _ & _ & -> & ->). apply (HGE _ _ Hx Hne).
    + intros x n y m. rewrite Xb, Rb. apply HD.
    + rewrite Xb, Rb, Xto, Rto. exact HT.
  - destruct Hr as (_ & Hr & Hr0). split; [right; left; symmetry; exact Xla|]. split; [|rewrite Xlo; unfold low, HEADER in *; rewrite Rlo, Mlo; destruct ((h_low h =? 0) || (a <? h_low h)); lia]. intros x [<-|Hx].
    + rewrite PA, Xlo, Xhi. cbn [pg_end]. unfold low, high, HEADER in *.
      split; [|destruct ((h_high h5 =? 0) || (h_high h5 <? a + size)) eqn:E; lia].
      destruct ((h_low h5 =? 0) || (a <? h_low h5)) eqn:E; [lia|]. rewrite Rlo, Mlo in *. lia.
    + destruct (Hr x Hx) as [Y1 Y2]. rewrite Xlo, Xhi. destruct (PF x (PAYF x Hx)) as (_ & _ & _ & _ & _ & _ & ->). unfold low, high. rewrite Rlo, Rhi, Mlo, Mhi. unfold HEADER in *.
      destruct ((h_low h =? 0) || (a <? h_low h)) eqn:E1, ((h_high h =? 0) || (h_high h <? a + size)) eqn:E2; lia.
  - assert (K : forall x j, x <> a -> chunk_at h' x j = chunk_at h x j) by (intros x j Hx; unfold chunk_at; destruct (PF x Hx) as (_ & _ & _ & _ & _ & -> & _); reflexivity).
    assert (EH : h_hdr h' = h_hdr h) by congruence. assert (EFr : h_free h' = h_free h + 1) by congruence. assert (IM : INT_MAX = 2147483647) by reflexivity. rewrite Mf in EI. constructor.
    + rewrite EFr. pose proof (c_free _ _ _ _ C). lia.
    + intros x [<-|Hx].
      * unfold refs, onfs. rewrite PA, EFr. cbn. rewrite Mf. pose proof (c_free _ _ _ _ C). lia.
      * destruct (c_page _ _ _ _ C x Hx) as (Q1 & Q2 & Q3 & Q4 & Q5). pose proof (PAYF x Hx) as Hne. rewrite EFr. unfold refs, onfs, ref_at, onf_at. destruct (PF x Hne) as (-> & -> & -> & -> & -> & _). rewrite EH. split; [lia|]. split; [exact Q2|].
        split; [|split; [|exact Q5]].
        -- rewrite Q3. apply zsum_ext. intros j _. rewrite K by exact Hne. reflexivity.
        -- rewrite Q4. apply zsum_ext. intros j _. rewrite K by exact Hne. reflexivity.
    + assert (Old : forall x, In x F -> pg_id (h_page h' x) < h_free h) by (intros x Hx; destruct (PF x (PAYF x Hx)) as (-> & _); apply (c_page _ _ _ _ C x Hx)).
      assert (New : pg_id (h_page h' a) = h_free h) by (rewrite PA; cbn; congruence).
      intros x y [<-|Hx] [<-|Hy] Hid; [reflexivity|specialize (Old y Hy); lia|specialize (Old x Hx); lia|]. destruct (PF x (PAYF x Hx)) as (Ex & _). destruct (PF y (PAYF y Hy)) as (Ey & _). apply (c_ids _ _ _ _ C); [assumption|assumption|congruence].
    + intros x j [<-|Hx] Hj; [rewrite PA in Hj; cbn in Hj; lia|]. destruct (PF x (PAYF x Hx)) as (_ & _ & _ & Po & _). rewrite Po in Hj. rewrite (K x j (PAYF x Hx)), EH. apply (c_chunk _ _ _ _ C x j Hx Hj).
    + intros k b Hk. destruct (c_block _ _ _ _ C k b Hk) as (a2 & id2 & B1 & B2 & B3 & B4 & B5 & B6). exists a2, id2. rewrite EFr. split; [exact B1|]. split; [lia|]. split; [exact B3|]. split; [exact B4|]. split.
      * intro Hal. destruct (B5 Hal) as [Y1 Y2]. split; [right; exact Y1|]. destruct (PF a2 (PAYF a2 Y1)) as (-> & _). exact Y2.
      * intros a' [<-|Ha'] Hid; [rewrite PA in Hid; cbn in Hid; lia|]. destruct (PF a' (PAYF a' Ha')) as (Ei & _). rewrite Ei in Hid. destruct (B6 a' Ha' Hid) as (-> & i2 & Hi2 & HA2 & HH2 & HS2). split; [reflexivity|].
        exists i2. rewrite (K a2 i2 (PAYF a2 Ha')), EH. destruct (PF a2 (PAYF a2 Ha')) as (_ & _ & _ & -> & _ & -> & _). auto.
    + apply (c_uniq _ _ _ _ C).
    + apply (c_len _ _ _ _ C).
  - intros x Hx. destruct (PF x (PAYF x Hx)) as (_ & -> & _). apply U. exact Hx.
  - exists n0. rewrite Xb, Rb. exact Hn0.
  - intros x n. rewrite Xb, Rb. apply I2.
  - intros x Hx. rewrite PG. apply PAY. exact Hx.
Qed.
End Alloc.

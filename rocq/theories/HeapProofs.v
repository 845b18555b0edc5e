From Coq Require Import ZArith Lia Bool List ZifyBool Permutation.
From Verif Require Import Base MemModel BlkModel CmpModel HeapModel HeapSpec.
Import ListNotations.
Local Open Scope Z_scope.
Ltac Zify.zify_post_hook ::= Z.div_mod_to_equations.

(** * Linked lists *)
Fixpoint dseg (nx pv : Z -> Z) (p : Z) (l : list Z) : Prop :=
  match l with [] => True | a :: r => pv a = p /\ nx a = hd 0 r /\ dseg nx pv a r end.
Fixpoint sseg (nx : Z -> Z) (l : list Z) : Prop :=
  match l with [] => True | a :: r => nx a = hd 0 r /\ sseg nx r end.
Definition nx (h : heap) (x : Z) : Z := pg_next (h_page h x).
Definition pv (h : heap) (x : Z) : Z := pg_prev (h_page h x).

Lemma dseg_sseg nx pv l : forall p, dseg nx pv p l -> sseg nx l.
Proof. induction l as [|a l IH]; intros p H; cbn in *; [exact I|]. destruct H as (_ & H1 & H2). split; [exact H1|eapply IH, H2]. Qed.
Lemma dseg_ext nx pv nx' pv' l : (forall x, In x l -> nx' x = nx x /\ pv' x = pv x) -> forall p, dseg nx pv p l -> dseg nx' pv' p l.
Proof.
  induction l as [|a l IH]; intros E p H; cbn in *; [exact I|]. destruct H as (H0 & H1 & H2). destruct (E a (or_introl eq_refl)) as [-> ->].
  split; [exact H0|]. split; [exact H1|]. apply IH; [intros x Hx; apply E; right; exact Hx|exact H2].
Qed.
Lemma sseg_ext nx nx' l : (forall x, In x l -> nx' x = nx x) -> sseg nx l -> sseg nx' l.
Proof.
  induction l as [|a l IH]; intros E H; cbn in *; [exact I|]. destruct H as (H1 & H2). rewrite (E a (or_introl eq_refl)).
  split; [exact H1|]. apply IH; [intros x Hx; apply E; right; exact Hx|exact H2].
Qed.
Lemma dseg_mid nx pv l1 a l2 : forall p, dseg nx pv p (l1 ++ a :: l2) -> pv a = last l1 p /\ nx a = hd 0 l2.
Proof.
  induction l1 as [|c l1 IH]; intros p H; cbn [app dseg] in H.
  - destruct H as (H1 & H2 & _). auto.
  - destruct H as (_ & _ & H). destruct (IH _ H) as [H1 H2]. split; [|exact H2]. rewrite H1. destruct l1; [reflexivity|]. cbn [last].
    clear. revert z. induction l1; intros; cbn [last] in *; [reflexivity|]. destruct l1; [reflexivity|]. apply IHl1. exact z.
Qed.
Lemma last_in (l : list Z) d : l <> [] -> In (last l d) l.
Proof.
  induction l as [|a l IH]; intro H; [congruence|]. destruct l as [|b l]; [left; reflexivity|]. right. apply IH. discriminate.
Qed.
Lemma last_cons (l : list Z) c d : last (c :: l) d = last l c.
Proof. revert c d. induction l as [|a l IH]; intros c d; [reflexivity|]. cbn [last] in *. destruct l; [reflexivity|]. apply (IH c d) || exact (IH a d). Qed.
Lemma dseg_remove nx pv l1 a l2 nx' pv' : forall p,
  dseg nx pv p (l1 ++ a :: l2) -> NoDup (l1 ++ a :: l2) -> ~ In p (l1 ++ a :: l2) -> ~ In 0 (l1 ++ a :: l2) ->
  (forall x, nx' x = if (x =? pv a) && negb (pv a =? 0) then nx a else nx x) ->
  (forall x, pv' x = if (x =? nx a) && negb (nx a =? 0) then pv a else pv x) ->
  dseg nx' pv' p (l1 ++ l2).
Proof.
  induction l1 as [|c l1 IH]; intros p H ND HP H0 HN HV.
  - cbn [app dseg] in *. destruct H as (H1 & H2 & H3). destruct l2 as [|b r]; [exact I|]. cbn [hd] in H2. cbn [dseg] in *. destruct H3 as (H3 & H4 & H5).
    apply NoDup_cons_iff in ND as [N1 N2]. apply NoDup_cons_iff in N2 as [N3 N4].
    assert (HB : nx a <> 0) by (rewrite H2; intro X; apply H0; right; left; exact X). split; [|split].
    + rewrite HV, H2, Z.eqb_refl. rewrite H2 in HB. destruct (b =? 0) eqn:X; [lia|]. exact H1.
    + rewrite HN. destruct (b =? pv a) eqn:X; [|exact H4]. exfalso. apply HP. right. left. rewrite <- H1. lia.
    + apply (dseg_ext nx pv); [|exact H5]. intros x Hx. rewrite HN, HV, H2. split.
      * destruct (x =? pv a) eqn:X; [|reflexivity]. exfalso. apply HP. right. right. rewrite <- H1. assert (x = pv a) as <- by lia. exact Hx.
      * destruct (x =? b) eqn:X; [|reflexivity]. exfalso. apply N3. assert (x = b) by lia. congruence.
  - destruct (dseg_mid nx pv (c :: l1) a l2 p H) as [M1 M2]. cbn [app] in *. cbn [dseg] in H. destruct H as (H1 & H2 & H3). apply NoDup_cons_iff in ND as [N1 N2].
    cbn [app dseg]. split; [|split].
    + rewrite HV. destruct (c =? nx a) eqn:X; [|exact H1]. destruct (nx a =? 0) eqn:Y; [exact H1|]. exfalso. apply N1. apply in_or_app. right. right.
      destruct l2 as [|b r]; cbn [hd] in M2; [lia|]. left. lia.
    + rewrite HN. rewrite last_cons in M1. destruct l1 as [|e l1].
      * cbn [last] in M1. rewrite M1, Z.eqb_refl. destruct (c =? 0) eqn:X; [|cbn [andb negb app]; exact M2]. exfalso. apply H0. left. lia.
      * destruct (c =? pv a) eqn:X; [|exact H2]. exfalso. apply N1. apply in_or_app. left. pose proof (last_in (e :: l1) c ltac:(discriminate)). assert (c = pv a) by lia. congruence.
    + apply IH; try assumption. intro X. apply H0. right. exact X.
Qed.
Lemma dseg_frame nx pv l1 a l2 nx' pv' x :
  dseg nx pv 0 (l1 ++ a :: l2) ->
  (forall x, nx' x = if (x =? pv a) && negb (pv a =? 0) then nx a else nx x) ->
  (forall x, pv' x = if (x =? nx a) && negb (nx a =? 0) then pv a else pv x) ->
  ~ In x (l1 ++ a :: l2) -> nx' x = nx x /\ pv' x = pv x.
Proof.
  intros H HN HV Hx. destruct (dseg_mid _ _ _ _ _ _ H) as [M1 M2]. rewrite HN, HV. split.
  - destruct (x =? pv a) eqn:X; [|reflexivity]. destruct (pv a =? 0) eqn:Y; [reflexivity|]. exfalso. apply Hx, in_or_app. left.
    destruct l1 as [|c l1]; [cbn [last] in M1; lia|]. pose proof (last_in (c :: l1) 0 ltac:(discriminate)). assert (x = pv a) by lia. congruence.
  - destruct (x =? nx a) eqn:X; [|reflexivity]. destruct (nx a =? 0) eqn:Y; [reflexivity|]. exfalso. apply Hx, in_or_app. right. right.
    destruct l2 as [|b r]; cbn [hd] in M2; [lia|]. left. lia.
Qed.

(** * Relinking pages does not change their contents *)
Definition pay (p : page) : page := with_prev (with_next p 0) 0.
Definition same_pay (h h' : heap) : Prop := forall x, pay (h_page h' x) = pay (h_page h x).
Lemma pay_fields p q : pay p = pay q -> pg_id p = pg_id q /\ pg_ref p = pg_ref q /\ pg_num p = pg_num q /\ pg_occ p = pg_occ q /\
  pg_onf p = pg_onf q /\ pg_chunk p = pg_chunk q /\ pg_end p = pg_end q.
Proof. unfold pay, with_prev, with_next. cbn. intro H. injection H. intros. repeat split; assumption. Qed.

Lemma unlink_nx h a x : pv h a <> a -> nx (unlink h a) x = if (x =? pv h a) && negb (pv h a =? 0) then nx h a else nx h x.
Proof.
  intro H. unfold unlink, nx, pv, modify, set_page in *. destruct (pg_prev (h_page h a) =? 0) eqn:E0; cbn [h_page].
  - rewrite andb_false_r. destruct (pg_next (h_page h a) =? 0); cbn [h_page]; [reflexivity|]. destruct (x =? pg_next (h_page h a)) eqn:E; [|reflexivity]. cbn [with_prev pg_next]. do 2 f_equal. lia.
  - rewrite andb_true_r. destruct (a =? pg_prev (h_page h a)) eqn:E1; [lia|]. destruct (pg_next (h_page h a) =? 0) eqn:E2; cbn [h_page].
    + destruct (x =? pg_prev (h_page h a)); reflexivity.
    + destruct (x =? pg_next (h_page h a)) eqn:E3.
      * cbn [with_prev pg_next]. assert (x = pg_next (h_page h a)) as <- by lia. destruct (x =? pg_prev (h_page h a)); [reflexivity|]. reflexivity.
      * destruct (x =? pg_prev (h_page h a)); reflexivity.
Qed.
Lemma unlink_pv h a x : pv h a <> a -> pv (unlink h a) x = if (x =? nx h a) && negb (nx h a =? 0) then pv h a else pv h x.
Proof.
  intro H. unfold unlink, nx, pv, modify, set_page in *. destruct (pg_prev (h_page h a) =? 0) eqn:E0; cbn [h_page].
  - destruct (pg_next (h_page h a) =? 0) eqn:E2; cbn [h_page].
    + rewrite andb_false_r. reflexivity.
    + rewrite andb_true_r. destruct (x =? pg_next (h_page h a)); reflexivity.
  - destruct (a =? pg_prev (h_page h a)) eqn:E1; [lia|]. destruct (pg_next (h_page h a) =? 0) eqn:E2; cbn [h_page].
    + rewrite andb_false_r. destruct (x =? pg_prev (h_page h a)) eqn:E3; [|reflexivity]. cbn [with_next pg_prev]. do 2 f_equal. lia.
    + rewrite andb_true_r. destruct (x =? pg_next (h_page h a)) eqn:E3; [reflexivity|].
      destruct (x =? pg_prev (h_page h a)) eqn:E4; [|reflexivity]. cbn [with_next pg_prev]. do 2 f_equal. lia.
Qed.
Lemma same_modify h a f : (forall p, pay (f p) = pay p) -> same_pay h (modify h a f).
Proof. intros H x. unfold modify, set_page. cbn [h_page]. destruct (x =? a) eqn:E; [|reflexivity]. rewrite H. do 2 f_equal. lia. Qed.
Lemma same_refl h : same_pay h h. Proof. intro x. reflexivity. Qed.
Lemma same_trans h1 h2 h3 : same_pay h1 h2 -> same_pay h2 h3 -> same_pay h1 h3.
Proof. intros H1 H2 x. rewrite H2. apply H1. Qed.
Lemma unlink_same h a : same_pay h (unlink h a).
Proof.
  unfold unlink. set (h1 := if pg_prev (h_page h a) =? 0 then h else _).
  assert (H1 : same_pay h h1) by (unfold h1; destruct (pg_prev (h_page h a) =? 0); [apply same_refl|apply same_modify; reflexivity]).
  cbv zeta. destruct (pg_next (h_page h1 a) =? 0); [exact H1|]. eapply same_trans; [exact H1|]. apply same_modify. reflexivity.
Qed.
(** Everything but the links. *)
Definition same_rest (h h' : heap) : Prop :=
  h_hdr h' = h_hdr h /\ h_mem h' = h_mem h /\ h_blocks h' = h_blocks h /\ h_low h' = h_low h /\ h_high h' = h_high h /\
  h_free h' = h_free h /\ h_total h' = h_total h /\ h_temps h' = h_temps h.
Lemma rest_refl h : same_rest h h. Proof. unfold same_rest. auto 10. Qed.
Lemma rest_trans h1 h2 h3 : same_rest h1 h2 -> same_rest h2 h3 -> same_rest h1 h3.
Proof. unfold same_rest. intuition congruence. Qed.
Lemma unlink_rest h a : same_rest h (unlink h a) /\ h_first (unlink h a) = h_first h /\ h_recycled (unlink h a) = h_recycled h /\
  h_black (unlink h a) = h_black h /\ h_last (unlink h a) = h_last h /\ h_blsize (unlink h a) = h_blsize h.
Proof.
  unfold unlink, modify, set_page. destruct (pg_prev (h_page h a) =? 0); cbn [h_page]; match goal with |- context [if ?b then _ else _] => destruct b end;
  cbn; unfold same_rest; cbn; auto 20.
Qed.

(** * Invariants *)
(** Pages in use, recycled, blacklisted, and pages taken out of every list. *)
Record lists (h : heap) (F R B X : list Z) : Prop := {
  l_F : dseg (nx h) (pv h) 0 F; l_first : h_first h = hd 0 F;
  l_R : sseg (nx h) R; l_rec : h_recycled h = hd 0 R;
  l_B : dseg (nx h) (pv h) 0 B; l_blk : h_black h = hd 0 B;
  l_perm : Permutation (map fst (h_blocks h)) (F ++ R ++ B ++ X)
}.
Record geo (h : heap) : Prop := {
  g_nodup : NoDup (map fst (h_blocks h));
  g_geo : forall a n, In (a, n) (h_blocks h) -> HEADER < a /\ a + n < two63 /\ 0 < pg_chunk (h_page h a) /\ 0 < pg_num (h_page h a) /\
    page_size (h_page h a) <= n /\ page_size (h_page h a) <= INT_MAX /\ pg_end (h_page h a) = a + page_size (h_page h a);
  g_disj : forall a n b m, In (a, n) (h_blocks h) -> In (b, m) (h_blocks h) -> a <> b -> a + n <= b - HEADER \/ b + m <= a - HEADER;
  g_total : held (h_blocks h) <= h_total h
}.
Definition rng (h : heap) (F : list Z) : Prop :=
  (h_last h = 0 \/ In (h_last h) F) /\ (forall a, In a F -> 0 < h_low h <= a /\ pg_end (h_page h a) <= h_high h) /\ 0 <= h_low h.

Fixpoint zsum (f : Z -> Z) (n : nat) : Z := match n with O => 0 | S n' => zsum f n' + f (Z.of_nat n') end.
Lemma zsum_ext f g n : (forall i, 0 <= i < Z.of_nat n -> f i = g i) -> zsum f n = zsum g n.
Proof. induction n as [|n IH]; intro H; cbn [zsum]; [reflexivity|]. rewrite IH, (H (Z.of_nat n)); [reflexivity|lia|]. intros i Hi. apply H. lia. Qed.
Lemma zsum_upd f g n j : 0 <= j < Z.of_nat n -> (forall i, 0 <= i < Z.of_nat n -> i <> j -> g i = f i) -> zsum g n = zsum f n + (g j - f j).
Proof.
  induction n as [|n IH]; intros Hj H; [lia|]. cbn [zsum]. destruct (Z.eq_dec j (Z.of_nat n)) as [->|Hne].
  - rewrite (zsum_ext g f n); [lia|]. intros i Hi. apply H; lia.
  - rewrite IH; [|lia|intros i Hi Hn; apply H; lia]. rewrite (H (Z.of_nat n)) by lia. lia.
Qed.
Lemma zsum_nn f n : (forall i, 0 <= i < Z.of_nat n -> 0 <= f i) -> 0 <= zsum f n.
Proof. induction n as [|n IH]; intro H; cbn [zsum]; [lia|]. pose proof (H (Z.of_nat n) ltac:(lia)). assert (0 <= zsum f n) by (apply IH; intros i Hi; apply H; lia). lia. Qed.
Lemma zsum_le f n j : (forall i, 0 <= i < Z.of_nat n -> 0 <= f i) -> 0 <= j < Z.of_nat n -> f j <= zsum f n.
Proof.
  induction n as [|n IH]; intros H Hj; [lia|]. cbn [zsum]. destruct (Z.eq_dec j (Z.of_nat n)) as [->|].
  - assert (0 <= zsum f n) by (apply zsum_nn; intros i Hi; apply H; lia). lia.
  - assert (f j <= zsum f n) by (apply IH; [intros i Hi; apply H; lia|lia]). pose proof (H (Z.of_nat n) ltac:(lia)). lia.
Qed.
Lemma zsum_pos f n : 0 < zsum f n -> exists i, 0 <= i < Z.of_nat n /\ 0 < f i.
Proof.
  induction n as [|n IH]; cbn [zsum]; intro H; [lia|]. destruct (Z.lt_ge_cases 0 (f (Z.of_nat n))).
  - exists (Z.of_nat n). lia.
  - destruct IH as (i & Hi & Hf); [lia|]. exists i. lia.
Qed.
Definition ref_at (h : heap) (x : Z) : Z := match h_hdr h x with Some c => hd_ref c | None => 0 end.
Definition onf_at (h : heap) (x : Z) : Z :=
  match h_hdr h x with Some c => if (0 <? hd_ref c) && negb (hd_onFree c =? 0) then 1 else 0 | None => 0 end.
Definition chunk_at (h : heap) (a i : Z) : Z := a + i * pg_chunk (h_page h a).
Definition refs (h : heap) (a : Z) : Z := zsum (fun i => ref_at h (chunk_at h a i)) (Z.to_nat (pg_occ (h_page h a))).
Definition onfs (h : heap) (a : Z) : Z := zsum (fun i => onf_at h (chunk_at h a i)) (Z.to_nat (pg_occ (h_page h a))).

Record cont (h : heap) (s : list block) (F : list Z) (G : list (Z * Z)) : Prop := {
  c_free : 0 < h_free h <= INT_MAX;
  c_page : forall a, In a F -> 0 < pg_id (h_page h a) < h_free h /\ 0 <= pg_occ (h_page h a) <= pg_num (h_page h a) /\
    pg_ref (h_page h a) = refs h a /\ pg_onf (h_page h a) = onfs h a /\ pg_ref (h_page h a) <= INT_MAX;
  c_ids : forall a b, In a F -> In b F -> pg_id (h_page h a) = pg_id (h_page h b) -> a = b;
  c_chunk : forall a i, In a F -> 0 <= i < pg_occ (h_page h a) -> exists c, h_hdr h (chunk_at h a i) = Some c /\ 0 <= hd_ref c /\
    (0 < hd_ref c -> exists k b, nth_error s k = Some b /\ alive b /\ b_addr b = chunk_at h a i + 40);
  c_block : forall k b, nth_error s k = Some b -> exists a id, nth_error G k = Some (a, id) /\ 0 < id < h_free h /\ 0 <= b_refs b /\ 0 <= b_size b /\
    (alive b -> In a F /\ pg_id (h_page h a) = id) /\
    (forall a', In a' F -> pg_id (h_page h a') = id -> a' = a /\ exists i, 0 <= i < pg_occ (h_page h a) /\ b_addr b = chunk_at h a i + 40 /\
       h_hdr h (chunk_at h a i) = Some (MkHdr (b_refs b) (b_size b) (b_onFree b) (b_stack b)) /\ 41 + b_size b <= pg_chunk (h_page h a));
  c_uniq : forall k1 k2 b1 b2, nth_error s k1 = Some b1 -> nth_error s k2 = Some b2 -> nth_error G k1 = nth_error G k2 -> b_addr b1 = b_addr b2 -> k1 = k2;
  c_len : length G = length s
}.
Definition used (h : heap) (F : list Z) : Prop := forall a, In a F -> 0 < pg_ref (h_page h a).
Definition inv (h : heap) (s : list block) (F R B : list Z) (G : list (Z * Z)) : Prop := lists h F R B [] /\ geo h /\ rng h F /\ cont h s F G /\ used h F.

Lemma refs_same h h' a : same_pay h h' -> h_hdr h' = h_hdr h -> refs h' a = refs h a /\ onfs h' a = onfs h a.
Proof.
  intros S E. destruct (pay_fields _ _ (S a)) as (_ & _ & _ & P4 & _ & P6 & _). unfold refs, onfs, chunk_at, ref_at, onf_at. rewrite P4, E, P6. auto.
Qed.
Lemma cont_same h h' s F F' G : same_pay h h' -> h_hdr h' = h_hdr h -> h_free h' = h_free h -> incl F' F ->
  (forall a k b id, In a F -> nth_error s k = Some b -> alive b -> nth_error G k = Some (a, id) -> In a F') ->
  cont h s F G -> cont h' s F' G.
Proof.
  intros S E1 E2 HI HA [C1 C2 C3 C4 C5 C6 C7].
  assert (P : forall a, pg_id (h_page h' a) = pg_id (h_page h a) /\ pg_ref (h_page h' a) = pg_ref (h_page h a) /\ pg_num (h_page h' a) = pg_num (h_page h a) /\
    pg_occ (h_page h' a) = pg_occ (h_page h a) /\ pg_onf (h_page h' a) = pg_onf (h_page h a) /\ pg_chunk (h_page h' a) = pg_chunk (h_page h a)).
  { intro a. destruct (pay_fields _ _ (S a)) as (? & ? & ? & ? & ? & ? & ?). auto 10. }
  assert (K : forall a i, chunk_at h' a i = chunk_at h a i) by (intros a i; unfold chunk_at; destruct (P a) as (_ & _ & _ & _ & _ & ->); reflexivity).
  constructor.
  - rewrite E2. exact C1.
  - intros a Ha. destruct (P a) as (-> & -> & -> & -> & -> & _). destruct (refs_same h h' a S E1) as [-> ->]. rewrite E2. apply C2, HI, Ha.
  - intros a b Ha Hb. destruct (P a) as (-> & _). destruct (P b) as (-> & _). apply C3; apply HI; assumption.
  - intros a i Ha Hi. rewrite K, E1. destruct (P a) as (_ & _ & _ & Po & _). rewrite Po in Hi. apply C4; [apply HI, Ha|exact Hi].
  - intros k b Hk. destruct (C5 k b Hk) as (a & id & H1 & H2 & H3 & H4 & H5 & H6). exists a, id. rewrite E2. split; [exact H1|]. split; [exact H2|].
    split; [exact H3|]. split; [exact H4|]. destruct (P a) as (-> & _ & _ & -> & _ & ->). split.
    + intro Hal. destruct (H5 Hal) as [Q1 Q2]. split; [|exact Q2]. eapply HA; eassumption.
    + intros a' Ha'. destruct (P a') as (-> & _). intro Hid. destruct (H6 a' (HI _ Ha') Hid) as (-> & i & Q). split; [reflexivity|]. exists i. rewrite K, E1. exact Q.
  - exact C6.
  - exact C7.
Qed.

(** * Pages and chunks *)
Lemma lists_in h F R B X a : lists h F R B X -> In a (F ++ R ++ B ++ X) -> exists n, In (a, n) (h_blocks h).
Proof.
  intros L H. apply (Permutation_in a (Permutation_sym (l_perm _ _ _ _ _ L))) in H. apply in_map_iff in H as ((x & n) & <- & H). exists n. exact H.
Qed.
Lemma lists_nodup h F R B X : lists h F R B X -> geo h -> NoDup (F ++ R ++ B ++ X).
Proof. intros L H. eapply Permutation_NoDup; [apply (l_perm _ _ _ _ _ L)|apply (g_nodup _ H)]. Qed.
Lemma lists_pos h F R B X a : lists h F R B X -> geo h -> In a (F ++ R ++ B ++ X) -> HEADER < a.
Proof. intros L H Ha. destruct (lists_in _ _ _ _ _ _ L Ha) as (n & Hn). apply (g_geo _ H _ _ Hn). Qed.
Lemma lists_n0 h F R B X : lists h F R B X -> geo h -> ~ In 0 (F ++ R ++ B ++ X).
Proof. intros L H Ha. pose proof (lists_pos _ _ _ _ _ _ L H Ha). unfold HEADER in *. lia. Qed.
Lemma F_geo h F R B X a : lists h F R B X -> geo h -> In a F -> exists n, In (a, n) (h_blocks h) /\ HEADER < a /\ a + n < two63 /\ 0 < pg_chunk (h_page h a) /\ 0 < pg_num (h_page h a) /\
    page_size (h_page h a) <= n /\ page_size (h_page h a) <= INT_MAX /\ pg_end (h_page h a) = a + page_size (h_page h a).
Proof.
  intros L H Ha. destruct (lists_in _ _ _ _ _ a L) as (n & Hn); [apply in_or_app; left; exact Ha|]. exists n. split; [exact Hn|]. apply (g_geo _ H _ _ Hn).
Qed.
Lemma pages_apart h F R B X a b : lists h F R B X -> geo h -> In a F -> In b F -> a <> b -> pg_end (h_page h a) <= b - HEADER \/ pg_end (h_page h b) <= a - HEADER.
Proof.
  intros L H Ha Hb Hne. destruct (F_geo _ _ _ _ _ _ L H Ha) as (n & Hn & _ & _ & _ & _ & N1 & _ & N2). destruct (F_geo _ _ _ _ _ _ L H Hb) as (m & Hm & _ & _ & _ & _ & M1 & _ & M2).
  pose proof (g_disj _ H _ _ _ _ Hn Hm Hne). lia.
Qed.
Lemma chunk_range h F R B X a i : lists h F R B X -> geo h -> In a F -> 0 <= i < pg_num (h_page h a) ->
  a <= chunk_at h a i /\ chunk_at h a i + pg_chunk (h_page h a) <= pg_end (h_page h a).
Proof.
  intros L H Ha Hi. destruct (F_geo _ _ _ _ _ _ L H Ha) as (n & _ & _ & _ & HC & _ & _ & _ & ->). unfold chunk_at, page_size.
  assert (0 <= i * pg_chunk (h_page h a)) by (apply Z.mul_nonneg_nonneg; lia).
  assert ((i + 1) * pg_chunk (h_page h a) <= pg_num (h_page h a) * pg_chunk (h_page h a)) by (apply Z.mul_le_mono_nonneg_r; lia).
  rewrite Z.mul_add_distr_r in H1. lia.
Qed.
Lemma chunk_apart h a i j : 0 < pg_chunk (h_page h a) -> i < j -> chunk_at h a i + pg_chunk (h_page h a) <= chunk_at h a j.
Proof.
  intros H Hij. unfold chunk_at. assert ((i + 1) * pg_chunk (h_page h a) <= j * pg_chunk (h_page h a)) by (apply Z.mul_le_mono_nonneg_r; lia).
  rewrite Z.mul_add_distr_r in H0. lia.
Qed.
Lemma chunk_inj h F R B X a b i j : lists h F R B X -> geo h -> In a F -> In b F -> 0 <= i < pg_num (h_page h a) -> 0 <= j < pg_num (h_page h b) ->
  chunk_at h a i = chunk_at h b j -> a = b /\ i = j.
Proof.
  intros L H Ha Hb Hi Hj E. destruct (Z.eq_dec a b) as [->|Hne].
  - split; [reflexivity|]. destruct (F_geo _ _ _ _ _ _ L H Hb) as (n & _ & _ & _ & HC & _). unfold chunk_at in E.
    apply (Z.mul_reg_r i j (pg_chunk (h_page h b))); lia.
  - destruct (chunk_range _ _ _ _ _ _ _ L H Ha Hi) as [A1 A2]. destruct (chunk_range _ _ _ _ _ _ _ L H Hb Hj) as [B1 B2].
    destruct (F_geo _ _ _ _ _ _ L H Ha) as (? & _ & _ & _ & HC & _). destruct (F_geo _ _ _ _ _ _ L H Hb) as (? & _ & _ & _ & HD & _).
    pose proof (pages_apart _ _ _ _ _ _ _ L H Ha Hb Hne). unfold HEADER in *. lia.
Qed.
Lemma get_chunk h a i r : 0 < pg_chunk (h_page h a) -> 0 <= r < pg_chunk (h_page h a) -> pageGetChunk h a (chunk_at h a i + r) = chunk_at h a i.
Proof.
  intros H Hr. unfold pageGetChunk, chunk_at. replace (a + i * pg_chunk (h_page h a) + r - a) with (r + i * pg_chunk (h_page h a)) by lia.
  rewrite Z_mod_plus_full, Z.mod_small by exact Hr. lia.
Qed.
(** Where an alive block is. *)
Lemma block_place h s F R B X G k b : lists h F R B X -> geo h -> cont h s F G -> nth_error s k = Some b -> alive b ->
  exists a i, In a F /\ nth_error G k = Some (a, pg_id (h_page h a)) /\ 0 <= i < pg_occ (h_page h a) /\ b_addr b = chunk_at h a i + 40 /\
    h_hdr h (chunk_at h a i) = Some (MkHdr (b_refs b) (b_size b) (b_onFree b) (b_stack b)) /\ 0 <= b_size b /\ 41 + b_size b <= pg_chunk (h_page h a).
Proof.
  intros L Hg C Hk Hal. destruct (c_block _ _ _ _ C k b Hk) as (a & id & H1 & H2 & H3 & H4 & H5 & H6). destruct (H5 Hal) as [Q1 Q2].
  destruct (H6 a Q1 Q2) as (_ & i & Hi & Ha & Hh & Hs). exists a, i. rewrite Q2. auto 10.
Qed.
Lemma within_chunk h s F R B X G k b p : lists h F R B X -> geo h -> cont h s F G -> nth_error s k = Some b -> alive b -> within p b ->
  exists a i, In a F /\ nth_error G k = Some (a, pg_id (h_page h a)) /\ 0 <= i < pg_occ (h_page h a) /\ b_addr b = chunk_at h a i + 40 /\
    h_hdr h (chunk_at h a i) = Some (MkHdr (b_refs b) (b_size b) (b_onFree b) (b_stack b)) /\ pageGetChunk h a p = chunk_at h a i /\
    a <= p < pg_end (h_page h a) /\ chunk_at h a i + 40 <= p < chunk_at h a i + pg_chunk (h_page h a).
Proof.
  intros L Hg C Hk Hal Hw. destruct (block_place _ _ _ _ _ _ _ _ _ L Hg C Hk Hal) as (a & i & Ha & HG & Hi & HA & HH & HS & HC). exists a, i.
  destruct (c_page _ _ _ _ C a Ha) as (_ & Ho & _). destruct (F_geo _ _ _ _ _ _ L Hg Ha) as (n & _ & _ & _ & HCh & _).
  destruct (chunk_range _ _ _ _ _ _ i L Hg Ha ltac:(lia)) as [A1 A2]. unfold within in Hw. split; [exact Ha|]. split; [exact HG|]. split; [exact Hi|]. split; [exact HA|]. split; [exact HH|].
  split; [|lia]. replace p with (chunk_at h a i + (p - chunk_at h a i)) at 1 by lia. apply get_chunk; lia.
Qed.

(** ** Finding the page of a pointer *)
Lemma walk_len h F R B X l : lists h F R B X -> (l = F \/ l = R \/ l = B) -> (length l < walk h)%nat.
Proof.
  intros L H. unfold walk. rewrite <- (map_length fst), (Permutation_length (l_perm _ _ _ _ _ L)), !app_length. destruct H as [->|[->| ->]]; lia.
Qed.
Lemma findLoop_hit h p a : forall l fuel, sseg (nx h) l -> (length l < fuel)%nat -> ~ In 0 l -> (forall x, In x l -> x <> a -> pageContainsPtr h x p = Ok false) ->
  pageContainsPtr h a p = Ok true -> In a l -> a <> h_last h -> findLoop fuel h (hd 0 l) p = Ok (set_last h a, a).
Proof.
  induction l as [|x l IH]; intros fuel HS HL H0 HF HT HI HN; [destruct HI|]. destruct fuel as [|fuel]; [cbn in HL; lia|]. cbn [hd findLoop].
  destruct (x =? 0) eqn:E0; [exfalso; apply H0; left; lia|]. cbn in HS. destruct HS as [HS1 HS2].
  destruct (Z.eq_dec x a) as [->|Hne].
  - destruct (a =? h_last h) eqn:E; [lia|]. rewrite HT. reflexivity.
  - destruct HI as [HI|HI]; [congruence|]. assert (E : (if x =? h_last h then Ok false else pageContainsPtr h x p) = Ok false) by (destruct (x =? h_last h); [reflexivity|apply HF; [left; reflexivity|exact Hne]]).
    rewrite E. cbn [bind]. unfold nx in HS1. rewrite HS1. apply IH; try assumption; [cbn in HL; lia|intro X; apply H0; right; exact X|intros y Hy; apply HF; right; exact Hy].
Qed.
Lemma findLoop_miss h p : forall l fuel, sseg (nx h) l -> (length l < fuel)%nat -> ~ In 0 l -> (forall x, In x l -> pageContainsPtr h x p = Ok false) ->
  findLoop fuel h (hd 0 l) p = Ok (h, 0).
Proof.
  induction l as [|x l IH]; intros fuel HS HL H0 HF; destruct fuel as [|fuel]; try (cbn in HL; lia); [reflexivity|]. cbn [hd findLoop].
  destruct (x =? 0) eqn:E0; [exfalso; apply H0; left; lia|]. cbn in HS. destruct HS as [HS1 HS2].
  assert (E : (if x =? h_last h then Ok false else pageContainsPtr h x p) = Ok false) by (destruct (x =? h_last h); [reflexivity|apply HF; left; reflexivity]).
  rewrite E. cbn [bind]. unfold nx in HS1. rewrite HS1. apply IH; try assumption; [cbn in HL; lia|intro X; apply H0; right; exact X|intros y Hy; apply HF; right; exact Hy].
Qed.
Lemma set_last_id h : set_last h (h_last h) = h. Proof. destruct h. reflexivity. Qed.
Lemma F_n0 h F R B X : lists h F R B X -> geo h -> ~ In 0 F.
Proof. intros L H Ha. apply (lists_n0 _ _ _ _ _ L H), in_or_app. left. exact Ha. Qed.
Lemma find_alive h s F R B G k b p : inv h s F R B G -> nth_error s k = Some b -> alive b -> within p b ->
  exists a i, pageFind h p = Ok (set_last h a, a) /\ In a F /\ nth_error G k = Some (a, pg_id (h_page h a)) /\ 0 <= i < pg_occ (h_page h a) /\ b_addr b = chunk_at h a i + 40 /\
    h_hdr h (chunk_at h a i) = Some (MkHdr (b_refs b) (b_size b) (b_onFree b) (b_stack b)) /\ pageGetChunk h a p = chunk_at h a i /\ a <= p < pg_end (h_page h a).
Proof.
  intros (L & Hg & Hr & C & U) Hk Hal Hw. destruct (within_chunk _ _ _ _ _ _ _ _ _ _ L Hg C Hk Hal Hw) as (a & i & Ha & HG & Hi & HA & HH & HGC & HR & HR2).
  exists a, i. split; [|auto 10]. destruct Hr as (Hlast & Hrange & _).
  assert (CT : pageContainsPtr h a p = Ok true).
  { unfold pageContainsPtr. replace ((a <=? p) && (p <? pg_end (h_page h a))) with true by lia. rewrite HGC, HH. cbn [hd_ref]. unfold alive in Hal. destruct (b_refs b <=? 0) eqn:E; [lia|reflexivity]. }
  assert (CF : forall x, In x F -> x <> a -> pageContainsPtr h x p = Ok false).
  { intros x Hx Hne. unfold pageContainsPtr. pose proof (pages_apart _ _ _ _ _ _ _ L Hg Hx Ha Hne). unfold HEADER in *.
    replace ((x <=? p) && (p <? pg_end (h_page h x))) with false by lia. reflexivity. }
  destruct (Hrange a Ha) as [Q1 Q2]. unfold pageFind.
  replace (negb (h_low h =? 0) && (p <? h_low h)) with false by lia. replace (negb (h_high h =? 0) && (h_high h <=? p)) with false by lia.
  destruct (h_last h =? 0) eqn:E0.
  - cbn [bind]. rewrite (l_first _ _ _ _ _ L). apply findLoop_hit; auto.
    + apply (dseg_sseg _ (pv h) _ 0), (l_F _ _ _ _ _ L).
    + eapply walk_len; [exact L|auto].
    + exact (F_n0 _ _ _ _ _ L Hg).
    + intro E. apply (F_n0 _ _ _ _ _ L Hg). rewrite E in Ha. replace (h_last h) with 0 in Ha by lia. exact Ha.
  - destruct Hlast as [Hlast|Hlast]; [lia|]. destruct (Z.eq_dec (h_last h) a) as [E|Hne].
    + subst a. rewrite CT. cbn [bind]. rewrite set_last_id. reflexivity.
    + rewrite (CF _ Hlast Hne). cbn [bind]. rewrite (l_first _ _ _ _ _ L). apply findLoop_hit; auto.
      * apply (dseg_sseg _ (pv h) _ 0), (l_F _ _ _ _ _ L).
      * eapply walk_len; [exact L|auto].
      * exact (F_n0 _ _ _ _ _ L Hg).
Qed.
Lemma find_foreign h s F R B G p : inv h s F R B G -> foreign h p -> pageFind h p = Ok (h, 0).
Proof.
  intros (L & Hg & Hr & C & U) Hf.
  assert (CF : forall x, In x F -> pageContainsPtr h x p = Ok false).
  { intros x Hx. destruct (F_geo _ _ _ _ _ _ L Hg Hx) as (n & Hn & _ & _ & _ & _ & N1 & _ & N2). specialize (Hf _ _ Hn). unfold pageContainsPtr. unfold HEADER in *.
    replace ((x <=? p) && (p <? pg_end (h_page h x))) with false by lia. reflexivity. }
  unfold pageFind. destruct (negb (h_low h =? 0) && (p <? h_low h)); [reflexivity|]. destruct (negb (h_high h =? 0) && (h_high h <=? p)); [reflexivity|].
  assert (E : (if h_last h =? 0 then Ok false else pageContainsPtr h (h_last h) p) = Ok false).
  { destruct (h_last h =? 0) eqn:E0; [reflexivity|]. apply CF. destruct Hr as [[Hl|Hl] _]; [lia|exact Hl]. }
  rewrite E. cbn [bind]. rewrite (l_first _ _ _ _ _ L). apply findLoop_miss; auto.
  - apply (dseg_sseg _ (pv h) _ 0), (l_F _ _ _ _ _ L).
  - eapply walk_len; [exact L|auto].
  - exact (F_n0 _ _ _ _ _ L Hg).
Qed.
Lemma idLoop_spec h id : forall l fuel, sseg (nx h) l -> (length l < fuel)%nat -> ~ In 0 l ->
  exists a, idLoop fuel h (hd 0 l) id = Ok a /\ ((a = 0 /\ forall x, In x l -> pg_id (h_page h x) <> id) \/ (In a l /\ pg_id (h_page h a) = id)).
Proof.
  induction l as [|x l IH]; intros fuel HS HL H0; destruct fuel as [|fuel]; try (cbn in HL; lia).
  - exists 0. cbn. auto.
  - cbn [hd idLoop]. destruct (x =? 0) eqn:E0; [exfalso; apply H0; left; lia|]. cbn in HS. destruct HS as [HS1 HS2]. unfold nx in HS1.
    destruct (pg_id (h_page h x) =? id) eqn:E.
    + exists x. split; [reflexivity|]. right. split; [left; reflexivity|lia].
    + destruct (IH fuel) as (a & Ha & Hc); [exact HS2|cbn in HL; lia|intro X; apply H0; right; exact X|]. exists a. rewrite HS1. split; [exact Ha|].
      destruct Hc as [[-> Hc]|[Hc1 Hc2]]; [left|right].
      * split; [reflexivity|]. intros y [<-|Hy]; [lia|auto].
      * split; [right; exact Hc1|exact Hc2].
Qed.

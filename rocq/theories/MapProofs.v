(** Proofs about the map operations: every operation on the node heap refines the same operation on a sorted list of entries. *)
From Coq Require Import ZArith Lia Bool List Sorted.
From Verif Require Import Base MapModel MapSpec MapTree.
Import ListNotations.
Local Open Scope Z_scope.

Section Proofs.
Variables K V : Type.
Variable v0 : V.
Variable cmp : K -> K -> outcome Z.
Variable ord : K -> K -> comparison.
Variable P : K -> Prop.
Hypothesis TO : total_order ord P.
Hypothesis DEC : decides ord P cmp.
Notation heap := (heap K V).
Notation tree := (tree K V).
Notation ctx := (ctx K V).

Lemma rd_loc : forall (h : heap) root len (c : ctx) (p : Z) L, holds h (ccells root len c p ++ L) ->
  rd h root (loc_of root c) = Ok p.
Proof.
  intros h root len c p L H. destruct c as [|[a pr k v r|a pr k v l] c]; cbn in *;
    rewrite (get_holds _ _ _ _ _ _ H); reflexivity.
Qed.

Lemma wr_loc : forall (h : heap) root len (c : ctx) (p q : Z) L, holds h (ccells root len c p ++ L) ->
  exists h', wr h root (loc_of root c) q = Ok (h', root) /\ holds h' (ccells root len c q ++ L) /\
    framed (ccells root len c p ++ L) h h' /\ next h' = next h.
Proof.
  intros h root len c p q L H. destruct c as [|[a pr k v r|a pr k v l] c]; cbn in *;
    unfold modify; rewrite (get_holds _ _ _ _ _ _ H); cbn [bind]; eexists; (split; [reflexivity|]);
    (split; [|split; [|reflexivity]]); eapply put_holds; exact H.
Qed.

Lemma cnt_hole : forall root len len' (c : ctx) p q x, cnt (K:=K) (V:=V) x (ccells root len c p) = cnt x (ccells root len' c q).
Proof.
  induction c as [|[a pr k v r|a pr k v l] c IH]; intros; cbn; [reflexivity| |];
    rewrite !cnt_app; rewrite (IH a a); reflexivity.
Qed.

Lemma mcells_plug : forall root len (c : ctx) (t : tree) h,
  holds h (ccells root len [] (raddr (plug c t)) ++ tcells (plug c t)) <->
  holds (K:=K) (V:=V) h (ccells root len c (raddr t) ++ tcells t).
Proof.
  induction c as [|[a pr k v r|a pr k v l] c IH]; intros t h; [reflexivity| |]; cbn [plug]; rewrite IH; cbn [tcells raddr ccells];
    (split; intro H; hperm H).
Qed.

Lemma cnt_plug : forall root len (c : ctx) (t : tree) x,
  cnt (K:=K) (V:=V) x (ccells root len [] (raddr (plug c t)) ++ tcells (plug c t)) = cnt x (ccells root len c (raddr t) ++ tcells t).
Proof.
  induction c as [|[a pr k v r|a pr k v l] c IH]; intros t x; [reflexivity| |]; cbn [plug]; rewrite IH; cnts; lia.
Qed.

(** ** Order *)
Lemma ord_refl : forall x, P x -> ord x x = Eq. Proof. apply TO. Qed.
Lemma ord_sym : forall x y, P x -> P y -> ord y x = CompOpp (ord x y). Proof. apply TO. Qed.
Lemma ord_trans : forall x y z, P x -> P y -> P z -> ord x y = Lt -> ord y z = Lt -> ord x z = Lt. Proof. apply TO. Qed.
Lemma ord_eq : forall x y z, P x -> P y -> P z -> ord x y = Eq -> ord x z = ord y z. Proof. apply TO. Qed.

Definition below (key : K) (e : entry K V) : Prop := ord key (ekey e) = Gt.
Definition above (key : K) (e : entry K V) : Prop := ord key (ekey e) = Lt.
Definition lt_e (x y : entry K V) : Prop := ord (ekey x) (ekey y) = Lt.
Definition good (l : list (entry K V)) : Prop := StronglySorted lt_e l /\ Forall (fun e => P (ekey e)) l.

Lemma good_app : forall l1 l2, good (l1 ++ l2) <->
  good l1 /\ good l2 /\ (forall x y, In x l1 -> In y l2 -> lt_e x y).
Proof.
  induction l1 as [|a l1 IH]; intro l2; cbn.
  - split; [intros H; split; [split; constructor | split; [exact H | intros ? ? []]] | tauto].
  - unfold good in *. split.
    + intros [S F]. inversion S as [|? ? S1 S2]; subst. inversion F as [|? ? F1 F2]; subst.
      destruct (proj1 (IH l2) (conj S1 F2)) as ((A1 & A2) & (B1 & B2) & C).
      apply Forall_app in S2. destruct S2 as [S2 S3].
      repeat split; auto; try (constructor; auto).
      intros x y [<-|Hx] Hy; [|now apply C]. rewrite Forall_forall in S3. now apply S3.
    + intros ((S & F) & (S2 & F2) & C). inversion S as [|? ? S1 S3]; subst. inversion F as [|? ? F1 F3]; subst.
      destruct (proj2 (IH l2)) as (A & B).
      { repeat split; auto. }
      split; constructor; auto. apply Forall_app. split; auto. apply Forall_forall. intros y Hy. apply C; auto.
Qed.

Lemma below_through : forall key l e r, P key -> good (l ++ e :: r) -> below key e -> Forall (below key) (l ++ [e]).
Proof.
  intros key l e r Pk G B. apply good_app in G. destruct G as ((_ & PL) & (_ & PE) & C).
  inversion PE; subst. apply Forall_app. split; [|constructor; auto].
  rewrite Forall_forall in *. intros x Hx. unfold below in *.
  assert (Lx : lt_e x e) by (apply C; [exact Hx | now left]). unfold lt_e in Lx.
  assert (ord (ekey e) key = Lt) by (rewrite ord_sym with (x := key); auto; rewrite B; reflexivity).
  rewrite ord_sym with (x := ekey x); auto. rewrite (ord_trans (ekey x) (ekey e) key); auto.
Qed.
Lemma above_through : forall key l e r, P key -> good (l ++ e :: r) -> above key e -> Forall (above key) (e :: r).
Proof.
  intros key l e r Pk G B. apply good_app in G. destruct G as (_ & (SE & PE) & _).
  inversion PE; subst. inversion SE; subst. constructor; [exact B|].
  rewrite Forall_forall in *. intros x Hx. unfold above in *. unfold lt_e in *.
  apply (ord_trans key (ekey e) (ekey x)); auto.
Qed.

(** ** Termination measure of the search loop *)
Fixpoint size (t : tree) : nat := match t with E => O | T _ _ _ _ l r => S (size l + size r) end.
Fixpoint rank (p : Z) (t : tree) : nat :=
  match t with E => O | T _ pr _ _ l r => ((if (p <? pr)%Z then 1 else 0) + rank p l + rank p r)%nat end.
Definition mu (t : tree) : nat :=
  match t with E => O | T _ pr _ _ _ _ => (size t * (size t + 1) + rank pr t)%nat end.

Lemma rank_le : forall p t, (rank p t <= size t)%nat.
Proof. induction t; cbn; [lia|]. destruct (p <? pr); lia. Qed.
Lemma rank_mono : forall p q t, p <= q -> (rank q t <= rank p t)%nat.
Proof.
  intros p q t H. induction t as [|a pr k v l IHl r IHr]; cbn; [lia|].
  destruct (Z.ltb_spec q pr); destruct (Z.ltb_spec p pr); lia.
Qed.
Lemma mu_le : forall t, (mu t <= size t * (size t + 2))%nat.
Proof. destruct t; cbn [mu]; [lia|]. pose proof (rank_le pr (T a pr k v t1 t2)). nia. Qed.
Lemma mu_left : forall a pr k v l r, (mu l < mu (T a pr k v l r))%nat.
Proof. intros. pose proof (mu_le l). cbn [mu size]. nia. Qed.
Lemma mu_right : forall a pr k v l r, (mu r < mu (T a pr k v l r))%nat.
Proof. intros. pose proof (mu_le r). cbn [mu size]. nia. Qed.
Lemma mu_rot_right : forall a pr k v l a2 pr2 k2 v2 l2 r2, pr < pr2 ->
  (mu (T a2 pr2 k2 v2 (T a pr k v l l2) r2) < mu (T a pr k v l (T a2 pr2 k2 v2 l2 r2)))%nat.
Proof.
  intros. cbn [mu size rank]. pose proof (rank_mono pr pr2 l); pose proof (rank_mono pr pr2 l2); pose proof (rank_mono pr pr2 r2).
  destruct (Z.ltb_spec pr2 pr2); destruct (Z.ltb_spec pr2 pr); destruct (Z.ltb_spec pr pr2); destruct (Z.ltb_spec pr pr); nia.
Qed.
Lemma mu_rot_left : forall a pr k v r a2 pr2 k2 v2 l2 r2, pr < pr2 ->
  (mu (T a2 pr2 k2 v2 l2 (T a pr k v r2 r)) < mu (T a pr k v (T a2 pr2 k2 v2 l2 r2) r))%nat.
Proof.
  intros. cbn [mu size rank]. pose proof (rank_mono pr pr2 r); pose proof (rank_mono pr pr2 l2); pose proof (rank_mono pr pr2 r2).
  destruct (Z.ltb_spec pr2 pr2); destruct (Z.ltb_spec pr2 pr); destruct (Z.ltb_spec pr pr2); destruct (Z.ltb_spec pr pr); nia.
Qed.

(** ** The search loop *)
Definition found (key : K) (t : tree) : Prop :=
  t = E \/ exists a pr k v l r, t = T a pr k v l r /\ ord key k = Eq.

Definition lay root len (c : ctx) (t : tree) := ccells root len c (raddr t) ++ tcells t.

Lemma rotate_right : forall (h : heap) root len (c : ctx) a pr k v l a2 pr2 k2 v2 l2 r2,
  holds h (lay root len c (T a pr k v l (T a2 pr2 k2 v2 l2 r2))) ->
  exists h', doRebalanceMapNodes h root (loc_of root c) a2 = Ok (h', root) /\
    holds h' (lay root len c (T a2 pr2 k2 v2 (T a pr k v l l2) r2)) /\
    framed (lay root len c (T a pr k v l (T a2 pr2 k2 v2 l2 r2))) h h' /\ next h' = next h.
Proof.
  intros h root len c a pr k v l a2 pr2 k2 v2 l2 r2 H. unfold lay in *. unfold doRebalanceMapNodes.
  rewrite (rd_loc _ _ _ _ _ _ H). cbn [bind raddr].
  cbn [raddr] in H. set (C := ccells root len c a) in *.
  assert (H1 : holds h ((a, mk pr k v (raddr l) a2) :: (a2, mk pr2 k2 v2 (raddr l2) (raddr r2)) :: tcells l ++ tcells l2 ++ tcells r2 ++ C))
    by (hperm H).
  rewrite (get_holds _ _ _ _ _ _ H1). cbn [bind n_right mk]. rewrite Z.eqb_refl.
  assert (H2 : holds h ((a2, mk pr2 k2 v2 (raddr l2) (raddr r2)) :: (a, mk pr k v (raddr l) a2) :: tcells l ++ tcells l2 ++ tcells r2 ++ C))
    by (hperm H).
  rewrite (get_holds _ _ _ _ _ _ H2). cbn [bind n_left mk].
  unfold modify at 1. rewrite (get_holds _ _ _ _ _ _ H1). cbn [bind].
  destruct (put_holds _ _ _ _ _ (set_right (mk pr k v (raddr l) a2) (raddr l2)) _ H1) as [H3 F3].
  set (h3 := put h a (set_right (mk pr k v (raddr l) a2) (raddr l2))) in *.
  assert (H4 : holds h3 ((a2, mk pr2 k2 v2 (raddr l2) (raddr r2)) :: (a, set_right (mk pr k v (raddr l) a2) (raddr l2)) :: tcells l ++ tcells l2 ++ tcells r2 ++ C)).
  { eapply holds_perm; [exact H3 | intro; cnts; lia | intro F; fors; tauto]. }
  unfold modify. rewrite (get_holds _ _ _ _ _ _ H4). cbn [bind].
  destruct (put_holds _ _ _ _ _ (set_left (mk pr2 k2 v2 (raddr l2) (raddr r2)) a) _ H4) as [H5 F5].
  set (h5 := put h3 a2 (set_left (mk pr2 k2 v2 (raddr l2) (raddr r2)) a)) in *.
  set (C' := tcells (T a2 pr2 k2 v2 (T a pr k v l l2) r2)).
  assert (H6 : holds h5 (ccells root len c a ++ C')).
  { eapply holds_perm; [exact H5 | intro; subst C'; cnts; fold C; lia | intro F; subst C'; fors; fold C; cbn [set_left set_right mk n_len n_prio n_key n_data n_left n_right] in *; tauto]. }
  destruct (wr_loc _ _ _ _ _ a2 _ H6) as (h6 & W & H7 & F7 & N7).
  rewrite W. exists h6. split; [reflexivity|]. split; [exact H7|]. split; [|rewrite N7; reflexivity].
  split; [rewrite N7; cbn; lia|].
  intros b Hb HC. destruct F7 as [_ F7]. destruct F5 as [_ F5]. destruct F3 as [_ F3].
  rewrite F7; [rewrite F5; [rewrite F3; [reflexivity|exact Hb|] | exact Hb |] | exact Hb|]; subst C'; fold C; cnts; fold C in HC; lia.
Qed.

Lemma rotate_left : forall (h : heap) root len (c : ctx) a pr k v r a2 pr2 k2 v2 l2 r2,
  holds h (lay root len c (T a pr k v (T a2 pr2 k2 v2 l2 r2) r)) ->
  exists h', doRebalanceMapNodes h root (loc_of root c) a2 = Ok (h', root) /\
    holds h' (lay root len c (T a2 pr2 k2 v2 l2 (T a pr k v r2 r))) /\
    framed (lay root len c (T a pr k v (T a2 pr2 k2 v2 l2 r2) r)) h h' /\ next h' = next h.
Proof.
  intros h root len c a pr k v r a2 pr2 k2 v2 l2 r2 H. unfold lay in *. unfold doRebalanceMapNodes.
  rewrite (rd_loc _ _ _ _ _ _ H). cbn [bind raddr].
  cbn [raddr] in H. set (C := ccells root len c a) in *.
  assert (H1 : holds h ((a, mk pr k v a2 (raddr r)) :: (a2, mk pr2 k2 v2 (raddr l2) (raddr r2)) :: tcells r ++ tcells l2 ++ tcells r2 ++ C))
    by (hperm H).
  rewrite (get_holds _ _ _ _ _ _ H1). cbn [bind n_right n_left mk]. rewrite Z.eqb_refl.
  assert (H2 : holds h ((a2, mk pr2 k2 v2 (raddr l2) (raddr r2)) :: (a, mk pr k v a2 (raddr r)) :: tcells r ++ tcells l2 ++ tcells r2 ++ C))
    by (hperm H).
  assert (D : (a2 =? raddr r) = false).
  { destruct (Z.eqb_spec a2 (raddr r)) as [E0|]; [exfalso|reflexivity].
    destruct r as [|a3 pr3 k3 v3 l3 r3]; cbn in E0.
    - apply addr_holds in H2. contradiction.
    - subst a3. destruct H2 as [H2 _]. specialize (H2 a2). cnts. rewrite one_same in H2. lia. }
  rewrite D.
  rewrite (get_holds _ _ _ _ _ _ H2). cbn [bind n_left n_right mk].
  unfold modify at 1. rewrite (get_holds _ _ _ _ _ _ H1). cbn [bind].
  destruct (put_holds _ _ _ _ _ (set_left (mk pr k v a2 (raddr r)) (raddr r2)) _ H1) as [H3 F3].
  set (h3 := put h a (set_left (mk pr k v a2 (raddr r)) (raddr r2))) in *.
  assert (H4 : holds h3 ((a2, mk pr2 k2 v2 (raddr l2) (raddr r2)) :: (a, set_left (mk pr k v a2 (raddr r)) (raddr r2)) :: tcells r ++ tcells l2 ++ tcells r2 ++ C)).
  { eapply holds_perm; [exact H3 | intro; cnts; lia | intro F; fors; tauto]. }
  unfold modify. rewrite (get_holds _ _ _ _ _ _ H4). cbn [bind].
  destruct (put_holds _ _ _ _ _ (set_right (mk pr2 k2 v2 (raddr l2) (raddr r2)) a) _ H4) as [H5 F5].
  set (h5 := put h3 a2 (set_right (mk pr2 k2 v2 (raddr l2) (raddr r2)) a)) in *.
  set (C' := tcells (T a2 pr2 k2 v2 l2 (T a pr k v r2 r))).
  assert (H6 : holds h5 (ccells root len c a ++ C')).
  { eapply holds_perm; [exact H5 | intro; subst C'; cnts; fold C; lia | intro F; subst C'; fors; fold C; cbn [set_left set_right mk n_len n_prio n_key n_data n_left n_right] in *; tauto]. }
  destruct (wr_loc _ _ _ _ _ a2 _ H6) as (h6 & W & H7 & F7 & N7).
  rewrite W. exists h6. split; [reflexivity|]. split; [exact H7|]. split; [|rewrite N7; reflexivity].
  split; [rewrite N7; cbn; lia|].
  intros b Hb HC. destruct F7 as [_ F7]. destruct F5 as [_ F5]. destruct F3 as [_ F3].
  rewrite F7; [rewrite F5; [rewrite F3; [reflexivity|exact Hb|] | exact Hb |] | exact Hb|]; subst C'; fold C; cnts; fold C in HC; lia.
Qed.

Lemma findLoop_ok : forall fuel (h : heap) root len (c : ctx) (t : tree) key,
  (mu t < fuel)%nat -> P key ->
  holds h (lay root len c t) -> good (inorder (plug c t)) ->
  Forall (below key) (cl c) -> Forall (above key) (cr c) ->
  exists h' c' t', findLoop cmp fuel h root (loc_of root c) key = Ok (h', root, loc_of root c') /\
    holds h' (lay root len c' t') /\ inorder (plug c' t') = inorder (plug c t) /\
    (forall x, cnt x (lay root len c' t') = cnt x (lay root len c t)) /\
    framed (lay root len c t) h h' /\ next h' = next h /\
    found key t' /\ Forall (below key) (cl c') /\ Forall (above key) (cr c').
Proof.
  induction fuel as [|fuel IH]; intros h root len c t key Hf Pk H G B A; [lia|].
  cbn [findLoop]. pose proof H as H'. unfold lay in H'. rewrite (rd_loc _ _ _ _ _ _ H'). cbn [bind].
  destruct t as [|a pr k v l r].
  { cbn [raddr]. rewrite Z.eqb_refl. exists h, c, E. repeat split; auto; try apply H; try lia. left; reflexivity. }
  cbn [raddr].
  assert (H1 : holds h ((a, mk pr k v (raddr l) (raddr r)) :: tcells l ++ tcells r ++ ccells root len c a)) by (hperm H').
  pose proof (addr_holds _ _ _ _ _ _ H1) as Ha.
  destruct (Z.eqb_spec a 0) as [?|_]; [contradiction|].
  rewrite (get_holds _ _ _ _ _ _ H1). cbn [bind mk n_key n_prio].
  assert (Pk' : P k).
  { rewrite inorder_plug in G. cbn in G. destruct G as [_ G]. rewrite !Forall_app in G. destruct G as (_ & (_ & G) & _). inversion G; auto. }
  destruct (DEC key k Pk Pk') as (d & -> & Hd). cbn [bind].
  pose proof G as G0. rewrite inorder_plug in G0. cbn [inorder] in G0.
  destruct (Z.eqb_spec d 0) as [->|Hd0].
  { exists h, c, (T a pr k v l r). repeat split; auto; try apply H; try lia. right. exists a, pr, k, v, l, r. split; auto. }
  destruct (Z.ltb_spec 0 d) as [Hpos|Hneg].
  - (* go right *)
    assert (Ok : ord key k = Gt) by (rewrite <- Hd; apply Z.compare_gt_iff; lia).
    cbn [rd]. rewrite (get_holds _ _ _ _ _ _ H1). cbn [bind mk n_right n_key n_prio].
    assert (Hdown : exists h' c' t', findLoop cmp fuel h root (LRight a) key = Base.Ok (h', root, loc_of root c') /\
      holds h' (lay root len c' t') /\ inorder (plug c' t') = inorder (plug c (T a pr k v l r)) /\
      (forall x, cnt x (lay root len c' t') = cnt x (lay root len c (T a pr k v l r))) /\
      framed (lay root len c (T a pr k v l r)) h h' /\ next h' = next h /\
      found key t' /\ Forall (below key) (cl c') /\ Forall (above key) (cr c')).
    { destruct (IH h root len (FR a pr k v l :: c) r key) as (h' & c' & t' & E1 & E2 & E3 & E4 & E5 & E6 & E7 & E8 & E9); auto.
      - pose proof (mu_right a pr k v l r). lia.
      - unfold lay. cbn [ccells]. hperm H'.
      - cbn [cl]. apply Forall_app. split; [exact B|].
        apply below_through with (r := inorder r ++ cr c); auto.
        apply good_app in G0. destruct G0 as (_ & G0 & _). rewrite <- app_assoc in G0. exact G0.
      - exists h', c', t'. repeat split; auto; try apply E2; try lia.
        + intro x. rewrite E4. unfold lay. cnts. lia.
        + intros b Hb HC. apply E5; auto. unfold lay in *. cnts. lia. }
    destruct (0 <? pr); cbn [bind]; [|exact Hdown].
    destruct r as [|a2 pr2 k2 v2 l2 r2].
    + cbn [raddr]. unfold child_above. rewrite Z.eqb_refl. cbn [bind]. exact Hdown.
    + cbn [raddr] in *. unfold child_above.
      assert (H2 : holds h ((a2, mk pr2 k2 v2 (raddr l2) (raddr r2)) :: (a, mk pr k v (raddr l) a2) :: tcells l ++ tcells l2 ++ tcells r2 ++ ccells root len c a))
        by (hperm H').
      destruct (Z.eqb_spec a2 0); [exfalso; exact (addr_holds _ _ _ _ _ _ H2 e)|].
      rewrite (get_holds _ _ _ _ _ _ H2). cbn [bind mk n_prio].
      destruct (Z.ltb_spec pr pr2) as [Hup|_]; [|exact Hdown].
      destruct (rotate_right _ _ _ _ _ _ _ _ _ _ _ _ _ _ _ H) as (h1 & R1 & R2 & R3 & R4).
      rewrite R1. cbn [bind].
      destruct (IH h1 root len c (T a2 pr2 k2 v2 (T a pr k v l l2) r2) key) as (h' & c' & t' & E1 & E2 & E3 & E4 & E5 & E6 & E7 & E8 & E9); auto.
      * pose proof (mu_rot_right a pr k v l a2 pr2 k2 v2 l2 r2 Hup). lia.
      * clear Hdown IH. rewrite inorder_plug in *. cbn [inorder] in *. repeat (rewrite <- app_assoc in *; cbn [app] in *). exact G.
      * exists h', c', t'. rewrite E1. repeat split; auto; try apply E2; try lia.
        -- rewrite E3. rewrite !inorder_plug. cbn. repeat (rewrite <- !app_assoc; cbn). reflexivity.
        -- intro x. rewrite E4. unfold lay. cnts. rewrite (cnt_hole root len len c a a2). lia.
        -- destruct E5 as [_ E5]. destruct R3 as [_ R3]. intros b Hb HC. rewrite E5; [apply R3; auto | lia |].
           unfold lay in *. cnts. rewrite (cnt_hole root len len c a2 a). lia.
  - (* go left *)
    assert (Ok : ord key k = Lt) by (rewrite <- Hd; apply Z.compare_lt_iff; lia).
    cbn [rd]. rewrite (get_holds _ _ _ _ _ _ H1). cbn [bind mk n_left n_key n_prio].
    assert (Hdown : exists h' c' t', findLoop cmp fuel h root (LLeft a) key = Base.Ok (h', root, loc_of root c') /\
      holds h' (lay root len c' t') /\ inorder (plug c' t') = inorder (plug c (T a pr k v l r)) /\
      (forall x, cnt x (lay root len c' t') = cnt x (lay root len c (T a pr k v l r))) /\
      framed (lay root len c (T a pr k v l r)) h h' /\ next h' = next h /\
      found key t' /\ Forall (below key) (cl c') /\ Forall (above key) (cr c')).
    { destruct (IH h root len (FL a pr k v r :: c) l key) as (h' & c' & t' & E1 & E2 & E3 & E4 & E5 & E6 & E7 & E8 & E9); auto.
      - pose proof (mu_left a pr k v l r). lia.
      - unfold lay. cbn [ccells]. hperm H'.
      - cbn [cr]. rewrite app_comm_cons. apply Forall_app. split; [|exact A].
        apply above_through with (l := inorder l); auto.
        rewrite app_assoc in G0. apply good_app in G0. destruct G0 as (G0 & _ & _). apply good_app in G0. tauto.
      - exists h', c', t'. repeat split; auto; try apply E2; try lia.
        + intro x. rewrite E4. unfold lay. cnts. lia.
        + intros b Hb HC. apply E5; auto. unfold lay in *. cnts. lia. }
    destruct (0 <? pr); cbn [bind]; [|exact Hdown].
    destruct l as [|a2 pr2 k2 v2 l2 r2].
    + cbn [raddr]. unfold child_above. rewrite Z.eqb_refl. cbn [bind]. exact Hdown.
    + cbn [raddr] in *. unfold child_above.
      assert (H2 : holds h ((a2, mk pr2 k2 v2 (raddr l2) (raddr r2)) :: (a, mk pr k v a2 (raddr r)) :: tcells r ++ tcells l2 ++ tcells r2 ++ ccells root len c a))
        by (hperm H').
      destruct (Z.eqb_spec a2 0); [exfalso; exact (addr_holds _ _ _ _ _ _ H2 e)|].
      rewrite (get_holds _ _ _ _ _ _ H2). cbn [bind mk n_prio].
      destruct (Z.ltb_spec pr pr2) as [Hup|_]; [|exact Hdown].
      destruct (rotate_left _ _ _ _ _ _ _ _ _ _ _ _ _ _ _ H) as (h1 & R1 & R2 & R3 & R4).
      rewrite R1. cbn [bind].
      destruct (IH h1 root len c (T a2 pr2 k2 v2 l2 (T a pr k v r2 r)) key) as (h' & c' & t' & E1 & E2 & E3 & E4 & E5 & E6 & E7 & E8 & E9); auto.
      * pose proof (mu_rot_left a pr k v r a2 pr2 k2 v2 l2 r2 Hup). lia.
      * clear Hdown IH. rewrite inorder_plug in *. cbn [inorder] in *. repeat (rewrite <- app_assoc in *; cbn [app] in *). exact G.
      * exists h', c', t'. rewrite E1. repeat split; auto; try apply E2; try lia.
        -- rewrite E3. rewrite !inorder_plug. cbn. repeat (rewrite <- !app_assoc; cbn). reflexivity.
        -- intro x. rewrite E4. unfold lay. cnts. rewrite (cnt_hole root len len c a a2). lia.
        -- destruct E5 as [_ E5]. destruct R3 as [_ R3]. intros b Hb HC. rewrite E5; [apply R3; auto | lia |].
           unfold lay in *. cnts. rewrite (cnt_hole root len len c a2 a). lia.
Qed.
End Proofs.

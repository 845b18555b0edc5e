(** Each map operation refines the finite map operation. *)
From Coq Require Import ZArith Lia Bool List Sorted.
From Verif Require Import Base MapModel MapSpec MapTree MapProofs.
Import ListNotations.
Local Open Scope Z_scope.

Section Ops.
Variables K V : Type.
Variable v0 : V.
Variable cmp : K -> K -> outcome Z.
Variable ord : K -> K -> comparison.
Variable P : K -> Prop.
Hypothesis TO : total_order ord P.
Hypothesis DEC : decides ord P cmp.
Notation heap := (heap K V).
Notation tree := (tree K V).
Notation ctx := (ctx K V).
Notation entry := (entry K V).
Notation good := (good K V ord P).
Notation below := (below K V ord).
Notation above := (above K V ord).

(** ** The list operations at a split point *)
Section Lists.
Variable key : K.
Lemma s_get_below : forall (A : list entry) l, Forall (below key) A -> s_get ord (map snd A ++ l) key = s_get ord l key.
Proof. induction A as [|[a [k v]] A IH]; intros l H; cbn; [reflexivity|]. inversion H as [|? ? H1 H2]; subst. unfold below in H1. cbn in H1. rewrite H1. auto. Qed.
Lemma s_get_above : forall (B : list entry), Forall (above key) B -> s_get ord (map snd B) key = None.
Proof. induction B as [|[a [k v]] B IH]; intros H; cbn; [reflexivity|]. inversion H as [|? ? H1 H2]; subst. unfold above in H1. cbn in H1. rewrite H1. auto. Qed.
Lemma s_set_below : forall (A : list entry) l v, Forall (below key) A -> s_set ord (map snd A ++ l) key v = map snd A ++ s_set ord l key v.
Proof. induction A as [|[a [k w]] A IH]; intros l v H; cbn; [reflexivity|]. inversion H as [|? ? H1 H2]; subst. unfold below in H1. cbn in H1. rewrite H1. now rewrite IH. Qed.
Lemma s_set_above : forall (B : list entry) v, Forall (above key) B -> s_set ord (map snd B) key v = (key, v) :: map snd B.
Proof. destruct B as [|[a [k w]] B]; intros v H; cbn; [reflexivity|]. inversion H as [|? ? H1 H2]; subst. unfold above in H1. cbn in H1. now rewrite H1. Qed.
Lemma s_del_below : forall (A : list entry) l, Forall (below key) A -> s_del ord (map snd A ++ l) key = map snd A ++ s_del ord l key.
Proof. induction A as [|[a [k w]] A IH]; intros l H; cbn; [reflexivity|]. inversion H as [|? ? H1 H2]; subst. unfold below in H1. cbn in H1. rewrite H1. f_equal. apply IH; auto. Qed.
Lemma s_del_above : forall (B : list entry), Forall (above key) B -> s_del ord (map snd B) key = map snd B.
Proof. induction B as [|[a [k w]] B IH]; intros H; cbn; [reflexivity|]. inversion H as [|? ? H1 H2]; subst. unfold above in H1. cbn in H1. rewrite H1. f_equal. apply IH; auto. Qed.

Lemma around : forall (A : list entry) e B, P key -> good (A ++ e :: B) -> ord key (ekey e) = Eq ->
  Forall (below key) A /\ Forall (above key) B.
Proof.
  intros A e B Pk G He. apply good_app in G; auto. destruct G as ((_ & PA) & (SE & PE) & C).
  inversion PE as [|? ? P1 P2]; subst. inversion SE as [|? ? S1 S2]; subst.
  rewrite !Forall_forall in *. split.
  - intros x Hx. unfold below. assert (L : lt_e K V ord x e) by (apply C; [auto | now left]). unfold lt_e in L.
    rewrite (ord_eq K ord P TO key (ekey e) (ekey x)); auto.
    rewrite (ord_sym K ord P TO (ekey x) (ekey e)); auto. rewrite L. reflexivity.
  - intros x Hx. unfold above. specialize (S2 _ Hx). unfold lt_e in S2.
    rewrite (ord_eq K ord P TO key (ekey e) (ekey x)); auto.
Qed.

Lemma good_insert : forall (A : list entry) a v B, P key -> good (A ++ B) -> Forall (below key) A -> Forall (above key) B ->
  good (A ++ (a, (key, v)) :: B).
Proof.
  intros A a v B Pk G HA HB. apply good_app in G; auto. destruct G as (GA & GB & C). apply good_app; auto.
  repeat split.
  - apply GA. - apply GA.
  - constructor; [apply GB|]. rewrite Forall_forall in *. intros x Hx. apply HB in Hx. exact Hx.
  - constructor; [exact Pk | apply GB].
  - intros x y Hx [<-|Hy]; [|auto]. unfold lt_e. cbn. rewrite Forall_forall in HA.
    specialize (HA _ Hx). unfold below in HA. destruct GA as [_ PA]. rewrite Forall_forall in PA.
    rewrite (ord_sym K ord P TO key (ekey x)); auto. now rewrite HA.
Qed.
Lemma good_replace : forall (A : list entry) a a' k v v' B, good (A ++ (a, (k, v)) :: B) -> good (A ++ (a', (k, v')) :: B).
Proof.
  intros A a a' k v v' B G. apply good_app in G; auto. destruct G as (GA & (SB & PB) & C). apply good_app; auto.
  inversion SB; subst. inversion PB; subst.
  split; [exact GA|]. split.
  - split; constructor; auto.
  - intros x y Hx [<-|Hy].
    + specialize (C x (a, (k, v)) Hx (or_introl eq_refl)). exact C.
    + apply C; [auto | now right].
Qed.
Lemma good_remove : forall (A : list entry) e B, good (A ++ e :: B) -> good (A ++ B).
Proof.
  intros A e B G. apply good_app in G; auto. destruct G as (GA & (SB & PB) & C). apply good_app; auto.
  inversion SB; subst. inversion PB; subst. split; [exact GA|]. split; [split; auto|].
  intros; apply C; [auto | now right].
Qed.
End Lists.

Notation lay := (lay K V).
Definition room (t : tree) : nat := (mu K V t + size K V t + 2)%nat.

Lemma getNode_ok : forall fuel (h : heap) root len (t : tree) key,
  (room t <= fuel)%nat -> P key -> holds h (lay root len [] t) -> good (inorder t) ->
  exists h' c' t', doGetMapNode cmp fuel h root key false = Ok (h', root, loc_of root c') /\
    holds h' (lay root len c' t') /\ inorder t = cl c' ++ inorder t' ++ cr c' /\
    (forall x, cnt x (lay root len c' t') = cnt x (lay root len [] t)) /\
    framed (lay root len [] t) h h' /\ next h' = next h /\
    found K V ord key t' /\ Forall (below key) (cl c') /\ Forall (above key) (cr c').
Proof.
  intros fuel h root len t key Hf Pk H G. unfold doGetMapNode.
  pose proof H as H'. unfold lay in H'. cbn [ccells app] in H'.
  pose proof (addr_holds _ _ _ _ _ _ H') as Hr. destruct (Z.eqb_spec root 0) as [?|_]; [contradiction|].
  unfold room in Hf. destruct fuel as [|fuel]; [lia|]. cbn [findLoop rd bind].
  destruct (Z.eqb_spec root 0) as [?|_]; [contradiction|].
  rewrite (get_holds _ _ _ _ _ _ H'). cbn [bind n_key sent n_prio Z.eqb Z.ltb Z.compare rd].
  change (1 =? 0) with false. change (0 <? 1) with true. change (0 <? 0) with false.
  cbn [rd bind]. rewrite (get_holds _ _ _ _ _ _ H'). cbn [bind].
  destruct (findLoop_ok K V cmp ord P TO DEC fuel h root len [] t key) as (h' & c' & t' & E1 & E2 & E3 & E4 & E5 & E6 & E7 & E8 & E9);
    auto; try constructor; [lia|].
  cbn [loc_of] in E1. rewrite E1. cbn [bind].
  pose proof E2 as E2'. unfold lay in E2'. rewrite (rd_loc _ _ _ _ _ _ _ _ E2'). cbn [bind andb].
  exists h', c', t'. rewrite inorder_plug in E3. cbn [plug] in E3. repeat split; auto; try apply E2; try apply E5; symmetry; auto.
Qed.

Lemma getNode_create : forall fuel (h : heap) root key h' l,
  doGetMapNode cmp fuel h root key false = Ok (h', root, l) ->
  doGetMapNode cmp fuel h root key true =
    (let* p := rd h' root l in
     if p =? 0 then let (h', a) := alloc h' in let* (h', root) := wr h' root l a in Ok (h', root, l)
     else Ok (h', root, l)).
Proof.
  intros fuel h root key h' l. unfold doGetMapNode. destruct (root =? 0); [discriminate|].
  destruct (findLoop cmp fuel h root LRoot key) as [[[h1 r1] l1]| |]; cbn [bind]; try discriminate.
  destruct (rd h1 r1 l1) as [p| |] eqn:Hrd; cbn [bind andb]; try discriminate.
  intro E0. injection E0 as <- <- <-. rewrite Hrd. reflexivity.
Qed.

(** The sentinel's cell can be taken out of a layout whatever the position in the tree. *)
Lemma ccells_root : forall root (c : ctx) hole, exists p rest, forall len,
  (forall x, cnt x (ccells root len c hole) = cnt x ((root, sent len p) :: rest)) /\
  (forall h : heap, Forall (okc h) (ccells root len c hole) <-> Forall (okc h) ((root, sent len p) :: rest)).
Proof.
  induction c as [|[a pr k v r|a pr k v l] c IH]; intros hole.
  - exists hole, []. intro len. cbn. split; [reflexivity | intro; reflexivity].
  - destruct (IH a) as (p & rest & HH). exists p, ((a, mk pr k v hole (raddr r)) :: tcells r ++ rest). intro len.
    destruct (HH len) as [H1 H2]. split.
    + intro x. cbn [ccells cnt]. rewrite cnt_app, H1. cbn [cnt]. rewrite cnt_app. lia.
    + intro h. cbn [ccells]. specialize (H2 h). repeat (rewrite ?Forall_cons_iff, ?Forall_app in * ). tauto.
  - destruct (IH a) as (p & rest & HH). exists p, ((a, mk pr k v (raddr l) hole) :: tcells l ++ rest). intro len.
    destruct (HH len) as [H1 H2]. split.
    + intro x. cbn [ccells cnt]. rewrite cnt_app, H1. cbn [cnt]. rewrite cnt_app. lia.
    + intro h. cbn [ccells]. specialize (H2 h). repeat (rewrite ?Forall_cons_iff, ?Forall_app in * ). tauto.
Qed.

Lemma set_root_len : forall (h : heap) root len (c : ctx) hole L f,
  holds h (ccells root len c hole ++ L) ->
  exists n, get h root = Ok n /\ n_len n = len /\
    holds (put h root (set_len n f)) (ccells root f c hole ++ L) /\
    framed (ccells root len c hole ++ L) h (put h root (set_len n f)).
Proof.
  intros h root len c hole L f H.
  destruct (ccells_root root c hole) as (p & rest & HH).
  assert (H1 : holds h ((root, sent len p) :: rest ++ L)).
  { destruct (HH len) as [C1 F1]. eapply holds_perm; [exact H| |].
    - intro x. rewrite cnt_app, C1. cbn [cnt]. rewrite cnt_app. lia.
    - rewrite Forall_app, F1, !Forall_cons_iff, Forall_app. tauto. }
  exists (sent len p). split; [exact (get_holds _ _ _ _ _ _ H1)|]. split; [reflexivity|].
  destruct (put_holds _ _ _ _ _ (set_len (sent len p) f) _ H1) as [H2 F2]. split.
  - destruct (HH f) as [C1 F1]. eapply holds_perm; [exact H2| |].
    + intro x. rewrite cnt_app, C1. cbn [cnt]. rewrite cnt_app. lia.
    + intro F0. rewrite Forall_app, F1, Forall_cons_iff. rewrite Forall_cons_iff, Forall_app in F0.
      change (set_len (sent len p) f) with (sent (K:=K) (V:=V) f p) in F0. tauto.
  - eapply framed_sub; [exact F2|]. intro x. destruct (HH len) as [C1 _]. rewrite cnt_app, C1. cbn [cnt]. rewrite cnt_app. lia.
Qed.

(** m[k]: afterwards the entry of [key] is at the address returned. *)
Lemma getPtr_ok : forall fuel (h : heap) root (t : tree) key r,
  (room t <= fuel)%nat -> P key -> holds h (lay root (Z.of_nat (length (inorder t))) [] t) -> good (inorder t) ->
  0 < next h ->
  exists h' (c : ctx) a pr k v (l r' : tree) (t' := plug c (T a pr k v l r')),
    doGetMapPtr v0 cmp fuel h root key r = Ok (h', root, a) /\
    holds h' (lay root (Z.of_nat (length (inorder t'))) c (T a pr k v l r')) /\
    framed (lay root (Z.of_nat (length (inorder t))) [] t) h h' /\
    (forall x, (x < next h)%Z -> cnt x (lay root (Z.of_nat (length (inorder t'))) [] t') = cnt x (lay root (Z.of_nat (length (inorder t))) [] t)) /\
    ord key k = Eq /\
    Forall (below key) (cl c ++ inorder l) /\ Forall (above key) (inorder r' ++ cr c) /\
    good (inorder t') /\
    ((inorder t = inorder t') \/
     (inorder t = (cl c ++ inorder l) ++ inorder r' ++ cr c /\ v = v0 /\ k = key)).
Proof.
  intros fuel h root t key r Hf Pk H G N. unfold doGetMapPtr.
  pose proof H as H'. unfold lay in H'. cbn [ccells app] in H'.
  pose proof (addr_holds _ _ _ _ _ _ H') as Hr. destruct (Z.eqb_spec root 0) as [?|_]; [contradiction|].
  destruct (getNode_ok fuel h root _ t key Hf Pk H G) as (h1 & c & t1 & E1 & E2 & E3 & E4 & E5 & E6 & E7 & E8 & E9).
  rewrite (getNode_create _ _ _ _ _ _ E1). pose proof E2 as E2'. unfold lay in E2'. rewrite (rd_loc _ _ _ _ _ _ _ _ E2'). cbn [bind].
  destruct E7 as [->|(a & pr & k & v & l & r' & -> & Ek)].
  - (* new entry *)
    cbn [raddr]. rewrite Z.eqb_refl.
    cbn [raddr tcells] in E2'. 
    destruct (alloc_holds _ _ _ _ E2') as (h2 & A1 & A2 & A3 & A4); [lia|]. rewrite A1.
    set (a := next h1) in *.
    assert (A2' : holds h2 (ccells root (Z.of_nat (length (inorder t))) c 0 ++ [(a, zero_node)])) by (hperm A2).
    destruct (wr_loc _ _ _ _ _ _ _ a _ A2') as (h3 & W1 & W2 & W3 & W4). rewrite W1. cbn [bind].
    rewrite (rd_loc _ _ _ _ _ _ _ _ W2). cbn [bind].
    assert (W2' : holds h3 ((a, zero_node) :: ccells root (Z.of_nat (length (inorder t))) c a)) by (hperm W2).
    rewrite (get_holds _ _ _ _ _ _ W2'). cbn [bind zero_node n_data].
    unfold modify at 1. rewrite (get_holds _ _ _ _ _ _ W2'). cbn [bind].
    destruct (put_holds _ _ _ _ _ (set_entry zero_node (r + 1) key v0) _ W2') as [Q1 Q2].
    set (h4 := put h3 a _) in *.
    assert (Q1' : holds h4 (ccells root (Z.of_nat (length (inorder t))) c a ++ [(a, set_entry zero_node (r + 1) key v0)])) by (hperm Q1).
    unfold modify.
    destruct (set_root_len h4 root _ c a _ (Z.of_nat (length (inorder t)) + 1) Q1') as (n & G1 & G2 & G3 & G4).
    rewrite G1. cbn [bind]. rewrite G2. set (h5 := put h4 root _) in *.
    assert (EL : inorder (plug c (T a (r+1) key v0 E E)) = cl c ++ (a, (key, v0)) :: cr c).
    { rewrite inorder_plug. reflexivity. }
    assert (ELn : Z.of_nat (length (inorder t)) + 1 = Z.of_nat (length (inorder (plug c (T a (r+1) key v0 E E))))).
    { rewrite EL, E3. rewrite !app_length. cbn [length inorder]. lia. }
    exists h5, c, a, (r + 1), key, v0, E, E. cbn zeta. rewrite <- ELn. repeat split.
    + apply G3.
    + apply G3.
    + unfold h5, h4. cbn. lia.
    + intros b Hb HC.
      destruct G4 as [_ G4]. destruct Q2 as [_ Q2]. destruct W3 as [_ W3]. destruct A3 as [_ A3]. destruct E5 as [_ E5].
      assert (HB : b <> a) by (unfold a; lia).
      assert (HC' : cnt b (ccells root (Z.of_nat (length (inorder t))) c 0) = O).
      { specialize (E4 b). rewrite HC in E4. unfold lay in E4. rewrite cnt_app in E4. cbn [raddr] in E4. lia. }
      assert (HC'' : cnt b (ccells root (Z.of_nat (length (inorder t))) c a) = O).
      { erewrite cnt_hole. exact HC'. }
      rewrite G4; [rewrite Q2; [rewrite W3; [rewrite A3; [apply E5|..]|..]|..]|..]; cnts;
        rewrite ?HC', ?HC'', ?(one_other a b HB); unfold h4; cbn [next put]; try lia; auto.
    + intros x Hx. rewrite <- E4. unfold lay. rewrite cnt_plug. cnts. rewrite (cnt_hole _ _ root _ (Z.of_nat (length (inorder t))) c a 0).
      rewrite (one_other a x); [lia | unfold a; lia].
    + apply (ord_refl K ord P TO); auto.
    + cbn [inorder]. rewrite app_nil_r. exact E8.
    + exact E9.
    + rewrite EL. apply good_insert; auto. cbn [inorder app] in E3. rewrite <- E3. exact G.
    + rewrite EL. apply good_insert; auto. cbn [inorder app] in E3. rewrite <- E3. exact G.
    + right. cbn [inorder app] in *. rewrite app_nil_r. auto.
  - (* existing entry *)
    cbn [raddr].
    assert (H1 : holds h1 ((a, mk pr k v (raddr l) (raddr r')) :: tcells l ++ tcells r' ++ ccells root (Z.of_nat (length (inorder t))) c a)) by (hperm E2').
    pose proof (addr_holds _ _ _ _ _ _ H1) as Ha.
    destruct (Z.eqb_spec a 0) as [?|_]; [contradiction|]. cbn [bind].
    pose proof (rd_loc _ _ _ _ _ _ _ _ E2') as Rd. cbn [raddr] in Rd. rewrite Rd. cbn [bind].
    rewrite (get_holds _ _ _ _ _ _ H1). cbn [bind mk n_data].
    assert (EL : inorder t = inorder (plug c (T a pr k v l r'))) by (rewrite inorder_plug; exact E3).
    assert (EG : good ((cl c ++ inorder l) ++ (a, (k, v)) :: inorder r' ++ cr c)).
    { replace ((cl c ++ inorder l) ++ (a, (k, v)) :: inorder r' ++ cr c) with (inorder t); [exact G|].
      rewrite E3. cbn [inorder]. repeat (rewrite <- app_assoc; cbn [app]). reflexivity. }
    destruct (around key _ _ _ Pk EG Ek) as [AR1 AR2].
    exists h1, c, a, pr, k, v, l, r'. cbn zeta. rewrite <- EL. repeat split; auto; try apply E2; try apply E5; try apply G.
    intros x _. rewrite <- E4. unfold lay. rewrite cnt_plug. reflexivity.
Qed.

(** ** Deletion *)
Lemma lay_ctx : forall root len (c1 c0 : ctx) (t : tree) (h : heap) L,
  holds h (ccells root len c0 (raddr (plug c1 t)) ++ tcells (plug c1 t) ++ L) <->
  holds h (ccells root len (c1 ++ c0) (raddr t) ++ tcells t ++ L).
Proof.
  induction c1 as [|[a pr k v r|a pr k v l] c1 IH]; intros c0 t h L; [reflexivity| |]; cbn [plug app]; rewrite IH; cbn [tcells raddr ccells];
    (split; intro H; hperm H).
Qed.
Lemma cnt_ctx : forall root len (c1 c0 : ctx) (t : tree) x,
  cnt x (ccells root len c0 (raddr (plug c1 t)) ++ tcells (plug c1 t)) = cnt x (ccells root len (c1 ++ c0) (raddr t) ++ tcells t).
Proof.
  induction c1 as [|[a pr k v r|a pr k v l] c1 IH]; intros c0 t x; [reflexivity| |]; cbn [plug app]; rewrite IH; cnts; lia.
Qed.

Lemma succ_ok : forall fuel (h : heap) root len (c : ctx) a pr k v (l r : tree),
  (size K V l < fuel)%nat -> holds h (lay root len c (T a pr k v l r)) ->
  exists c1 a2 pr2 k2 v2 r2, succLoop fuel h root (loc_of root c) = Ok (loc_of root (c1 ++ c)) /\
    T a pr k v l r = plug c1 (T a2 pr2 k2 v2 E r2) /\ cl c1 = [].
Proof.
  induction fuel as [|fuel IH]; intros h root len c a pr k v l r Hf H; [lia|].
  cbn [succLoop]. pose proof H as H'. unfold lay in H'. rewrite (rd_loc _ _ _ _ _ _ _ _ H'). cbn [bind raddr].
  assert (H1 : holds h ((a, mk pr k v (raddr l) (raddr r)) :: tcells l ++ tcells r ++ ccells root len c a)) by (hperm H').
  rewrite (get_holds _ _ _ _ _ _ H1). cbn [bind mk n_left].
  destruct l as [|a1 pr1 k1 v1 l1 r1].
  - cbn [raddr]. rewrite Z.eqb_refl. exists [], a, pr, k, v, r. repeat split.
  - cbn [raddr].
    assert (a1 <> 0).
    { assert (H2 : holds h ((a1, mk pr1 k1 v1 (raddr l1) (raddr r1)) :: (a, mk pr k v a1 (raddr r)) :: tcells l1 ++ tcells r1 ++ tcells r ++ ccells root len c a)) by (hperm H').
      exact (addr_holds _ _ _ _ _ _ H2). }
    destruct (Z.eqb_spec a1 0); [contradiction|].
    destruct (IH h root len (FL a pr k v r :: c) a1 pr1 k1 v1 l1 r1) as (c1 & a2 & pr2 & k2 & v2 & r2 & E1 & E2 & E3).
    + cbn [size] in Hf. lia.
    + unfold lay. hperm H'.
    + exists (c1 ++ [FL a pr k v r]), a2, pr2, k2, v2, r2. split; [|split].
      * cbn [loc_of] in E1. rewrite E1. rewrite <- app_assoc. reflexivity.
      * rewrite E2. clear. induction c1 as [|[] c1 IH] in a2, pr2, k2, v2, r2 |- *; cbn; auto.
        all: match goal with |- _ = plug (_ ++ _) ?t => generalize t end; intro t; clear; revert t.
        all: induction c1 as [|[] c1 IH]; intro t; cbn; auto.
      * revert E3. clear. induction c1 as [|[] c1 IH]; cbn; auto. intro E0. apply app_eq_nil in E0. destruct E0 as [E0 E1].
        apply app_eq_nil in E1. destruct E1 as [_ E1]. discriminate.
Qed.

Lemma unlink_ok : forall fuel (h : heap) root len (c : ctx) a pr k v (l r : tree),
  (size K V r < fuel)%nat -> holds h (lay root len c (T a pr k v l r)) ->
  exists h' t' n, unlink fuel h root (loc_of root c) a = Ok (h', root) /\
    holds h' ((a, n) :: lay root len c t') /\
    inorder t' = inorder l ++ inorder r /\
    (forall x, cnt x ((a, n) :: lay root len c t') = cnt x (lay root len c (T a pr k v l r))) /\
    framed (lay root len c (T a pr k v l r)) h h' /\ next h' = next h.
Proof.
  intros fuel h root len c a pr k v l r Hf H. unfold unlink.
  pose proof H as H'. unfold lay in H'. cbn [raddr] in H'.
  assert (H1 : holds h ((a, mk pr k v (raddr l) (raddr r)) :: tcells l ++ tcells r ++ ccells root len c a)) by (hperm H').
  rewrite (get_holds _ _ _ _ _ _ H1). cbn [bind mk n_left n_right].
  assert (Z0 : forall t : tree, (t = l \/ t = r) -> t <> E -> (raddr t =? 0) = false).
  { intros t Ht Hn. destruct t as [|a1 pr1 k1 v1 l1 r1]; [contradiction|]. cbn [raddr]. apply Z.eqb_neq.
    assert (F : Forall (okc h) (tcells (T a1 pr1 k1 v1 l1 r1))).
    { destruct H1 as [_ F]. rewrite Forall_cons_iff, !Forall_app in F. destruct Ht as [<-|<-]; tauto. }
    cbn [tcells] in F. inversion F as [|? ? (A & _)]; subst. exact A. }
  assert (Simple : forall t' : tree, (l = E /\ t' = r \/ r = E /\ t' = l) ->
    exists h' n, wr h root (loc_of root c) (raddr t') = Ok (h', root) /\
    holds h' ((a, n) :: lay root len c t') /\
    inorder t' = inorder l ++ inorder r /\
    (forall x, cnt x ((a, n) :: lay root len c t') = cnt x (lay root len c (T a pr k v l r))) /\
    framed (lay root len c (T a pr k v l r)) h h' /\ next h' = next h).
  { intros t' Ht'. destruct (wr_loc _ _ _ _ _ _ _ (raddr t') _ H') as (h2 & W1 & W2 & W3 & W4).
    exists h2, (mk pr k v (raddr l) (raddr r)). split; [exact W1|].
    destruct Ht' as [[-> ->]|[-> ->]].
    - split; [unfold lay; hperm W2|]. split; [reflexivity|]. split; [|split; auto].
      intro x. unfold lay. cnts. rewrite (cnt_hole _ _ root len len c (raddr r) a). lia.
    - split; [unfold lay; hperm W2|]. split; [cbn; now rewrite app_nil_r|]. split; [|split; auto].
      intro x. unfold lay. cnts. rewrite (cnt_hole _ _ root len len c (raddr l) a). lia. }
  destruct l as [|al prl kl vl ll lr] eqn:El; [|destruct r as [|ar prr kr vr rl rr] eqn:Er].
  - (* no left child *)
    cbn [raddr]. rewrite Z.eqb_refl. cbn [negb andb].
    destruct r as [|ar prr kr vr rl rr] eqn:Er.
    + cbn [raddr]. rewrite Z.eqb_refl. cbn [negb andb].
      destruct (Simple E) as (h' & n & S1 & S2); [auto|]. exists h', E, n. split; [exact S1 | exact S2].
    + rewrite (Z0 (T ar prr kr vr rl rr)); [|auto|discriminate]. cbn [negb andb].
      destruct (Simple (T ar prr kr vr rl rr)) as (h' & n & S1 & S2); [auto|]. exists h', (T ar prr kr vr rl rr), n. split; [exact S1 | exact S2].
  - (* left child only *)
    rewrite (Z0 (T al prl kl vl ll lr)); [|auto|discriminate]. cbn [raddr]. rewrite Z.eqb_refl. cbn [negb andb].
    destruct (Simple (T al prl kl vl ll lr)) as (h' & n & S1 & S2); [auto|]. exists h', (T al prl kl vl ll lr), n. split; [exact S1 | exact S2].
  - (* two children *)
    rewrite (Z0 (T al prl kl vl ll lr)); [|auto|discriminate]. rewrite (Z0 (T ar prr kr vr rl rr)); [|auto|discriminate]. cbn [negb andb].
    clear Simple Z0.
    assert (H2 : holds h (lay root len (FR a pr k v l :: c) (T ar prr kr vr rl rr))).
    { subst l. unfold lay. cbn [ccells]. hperm H'. }
    destruct (succ_ok fuel h root len (FR a pr k v l :: c) ar prr kr vr rl rr) as (c1 & a2 & pr2 & k2 & v2 & r2 & S1 & S2 & S3); auto.
    { cbn [size] in Hf. lia. }
    cbn [loc_of] in S1. rewrite S1. cbn [bind]. rewrite S2 in H2. unfold lay in H2.
    assert (H3 : holds h (ccells root len (c1 ++ FR a pr k v l :: c) a2 ++ tcells (T a2 pr2 k2 v2 E r2))).
    { pose proof (proj1 (lay_ctx root len c1 (FR a pr k v l :: c) (T a2 pr2 k2 v2 E r2) h [])) as X. rewrite !app_nil_r in X. exact (X H2). }
    rewrite (rd_loc _ _ _ _ _ _ _ _ H3). cbn [bind].
    assert (H4 : holds h ((a2, mk pr2 k2 v2 0 (raddr r2)) :: tcells r2 ++ ccells root len (c1 ++ FR a pr k v l :: c) a2)) by (hperm H3).
    rewrite (get_holds _ _ _ _ _ _ H4). cbn [bind mk n_right].
    destruct (wr_loc _ _ _ _ _ _ _ (raddr r2) _ H3) as (h1 & W1 & W2 & W3 & W4). rewrite W1. cbn [bind].
    set (r' := plug c1 r2) in *.
    assert (W5 : holds h1 (ccells root len (FR a pr k v l :: c) (raddr r') ++ tcells r' ++ [(a2, mk pr2 k2 v2 0 (raddr r2))])).
    { apply lay_ctx. hperm W2. }
    assert (W6 : holds h1 ((a, mk pr k v (raddr l) (raddr r')) :: (a2, mk pr2 k2 v2 0 (raddr r2)) :: tcells l ++ tcells r' ++ ccells root len c a)) by (hperm W5).
    rewrite (get_holds _ _ _ _ _ _ W6). cbn [bind mk n_left].
    assert (W7 : holds h1 ((a2, mk pr2 k2 v2 0 (raddr r2)) :: (a, mk pr k v (raddr l) (raddr r')) :: tcells l ++ tcells r' ++ ccells root len c a)) by (hperm W6).
    unfold modify at 1. rewrite (get_holds _ _ _ _ _ _ W7). cbn [bind].
    destruct (put_holds _ _ _ _ _ (set_left (mk pr2 k2 v2 0 (raddr r2)) (raddr l)) _ W7) as [Q1 Q2].
    set (h2 := put h1 a2 _) in *.
    assert (Q3 : holds h2 ((a, mk pr k v (raddr l) (raddr r')) :: (a2, set_left (mk pr2 k2 v2 0 (raddr r2)) (raddr l)) :: tcells l ++ tcells r' ++ ccells root len c a)) by (hperm Q1).
    rewrite (get_holds _ _ _ _ _ _ Q3). cbn [bind mk n_right].
    unfold modify. rewrite (get_holds _ _ _ _ _ _ Q1). cbn [bind].
    destruct (put_holds _ _ _ _ _ (set_right (set_left (mk pr2 k2 v2 0 (raddr r2)) (raddr l)) (raddr r')) _ Q1) as [Q4 Q5].
    set (h3 := put h2 a2 _) in *.
    set (t' := T a2 pr2 k2 v2 l r').
    assert (Q6 : holds h3 (ccells root len c a ++ (a, mk pr k v (raddr l) (raddr r')) :: tcells t')).
    { eapply holds_perm; [exact Q4 | intro; subst t'; cnts; lia | intro F; subst t'; fors; cbn [set_left set_right mk n_len n_prio n_key n_data n_left n_right] in *; tauto]. }
    destruct (wr_loc _ _ _ _ _ _ _ a2 _ Q6) as (h4 & V1 & V2 & V3 & V4).
    rewrite V1. exists h4, t', (mk pr k v (raddr l) (raddr r')).
    assert (CN : forall x, cnt x (tcells (T ar prr kr vr rl rr)) = (cnt x (tcells r') + one a2 x)%nat).
    { intro x. rewrite S2. pose proof (cnt_ctx 0 0 c1 [] (T a2 pr2 k2 v2 E r2) x) as X1. pose proof (cnt_ctx 0 0 c1 [] r2 x) as X2.
      fold r' in X2. cnts. rewrite (cnt_hole _ _ 0 0 0 (c1 ++ []) a2 (raddr r2)) in X1. lia. }
    split; [reflexivity|]. split; [subst t'; unfold lay; cbn [raddr]; hperm V2|]. split; [|split; [|split]].
    + subst t'. rewrite <- El. change (inorder (T a2 pr2 k2 v2 l r')) with (inorder l ++ (a2, (k2, v2)) :: inorder r').
      f_equal. rewrite S2, inorder_plug, S3. unfold r'. rewrite inorder_plug, S3. reflexivity.
    + intro x. unfold lay, t'. rewrite <- El. cbn [raddr]. specialize (CN x). cnts. rewrite (cnt_hole _ _ root len len c a2 a). lia.
    + subst t'. rewrite <- El in *. destruct V3 as [_ V3]. destruct Q5 as [_ Q5]. destruct Q2 as [_ Q2]. destruct W3 as [_ W3].
      split; [rewrite V4; unfold h3, h2; cbn; lia|]. intros b Hb HC. unfold lay in HC. cbn [raddr] in HC. specialize (CN b).
      pose proof (cnt_ctx root len c1 (FR a pr k v l :: c) (T a2 pr2 k2 v2 E r2) b) as X1. rewrite <- S2 in X1.
      assert (cnt b (ccells root len c a ++ tcells (T a pr k v l (T ar prr kr vr rl rr))) = cnt b (ccells root len (c1 ++ FR a pr k v l :: c) (raddr (T a2 pr2 k2 v2 E r2)) ++ tcells (T a2 pr2 k2 v2 E r2))).
      { rewrite <- X1. cnts. lia. }
      rewrite V3; [rewrite Q5; [rewrite Q2; [rewrite W3; [reflexivity|..]|..]|..]|..]; try (unfold h3, h2; cbn [next put]; lia); cnts; lia.
    + rewrite V4. unfold h3, h2. cbn. exact W4.
Qed.

Lemma delete_ok : forall fuel (h : heap) root (t : tree) key,
  (room t <= fuel)%nat -> P key -> holds h (lay root (Z.of_nat (length (inorder t))) [] t) -> good (inorder t) ->
  exists h' (t' : tree) A B,
    doBuiltinDeleteMap cmp fuel h root key = Ok (h', root) /\
    holds h' (lay root (Z.of_nat (length (inorder t'))) [] t') /\
    framed (lay root (Z.of_nat (length (inorder t))) [] t) h h' /\ next h' = next h /\
    (forall x, (cnt x (lay root (Z.of_nat (length (inorder t'))) [] t') <= cnt x (lay root (Z.of_nat (length (inorder t))) [] t))%nat) /\
    Forall (below key) A /\ Forall (above key) B /\ inorder t' = A ++ B /\ good (inorder t') /\
    (inorder t = A ++ B \/ exists e, inorder t = A ++ e :: B /\ ord key (ekey e) = Eq).
Proof.
  intros fuel h root t key Hf Pk H G. unfold doBuiltinDeleteMap.
  pose proof H as H'. unfold lay in H'. cbn [ccells app] in H'.
  pose proof (addr_holds _ _ _ _ _ _ H') as Hr. destruct (Z.eqb_spec root 0) as [?|_]; [contradiction|].
  destruct (getNode_ok fuel h root _ t key Hf Pk H G) as (h1 & c & t1 & E1 & E2 & E3 & E4 & E5 & E6 & E7 & E8 & E9).
  rewrite E1. cbn [bind]. pose proof E2 as E2'. unfold lay in E2'. rewrite (rd_loc _ _ _ _ _ _ _ _ E2'). cbn [bind].
  destruct E7 as [->|(a & pr & k & v & l & r & -> & Ek)].
  - cbn [raddr]. rewrite Z.eqb_refl. cbn [inorder app] in E3.
    assert (EP : inorder (plug c E) = inorder t) by (rewrite inorder_plug; symmetry; exact E3).
    exists h1, (plug c E), (cl c), (cr c). rewrite EP.
    split; [reflexivity|]. split; [apply mcells_plug; exact E2|]. split; [exact E5|]. split; [exact E6|].
    split; [intro x; rewrite <- E4; unfold lay; rewrite cnt_plug; lia|]. repeat split; auto; apply G.
  - cbn [raddr].
    assert (H1 : holds h1 ((a, mk pr k v (raddr l) (raddr r)) :: tcells l ++ tcells r ++ ccells root (Z.of_nat (length (inorder t))) c a)) by (hperm E2').
    pose proof (addr_holds _ _ _ _ _ _ H1) as Ha.
    destruct (Z.eqb_spec a 0) as [?|_]; [contradiction|].
    assert (Sz : (size K V r < fuel)%nat).
    { unfold room in Hf. assert (forall t0 : tree, size K V t0 = length (inorder t0)).
      { clear. induction t0; cbn; [reflexivity|]. rewrite app_length. cbn. lia. }
      rewrite (H0 t), E3 in Hf. rewrite H0. rewrite !app_length in Hf. cbn [inorder] in Hf. rewrite app_length in Hf. cbn in Hf. lia. }
    destruct (unlink_ok fuel h1 root _ c a pr k v l r Sz E2) as (h2 & t2 & n & U1 & U2 & U3 & U4 & U5 & U6).
    rewrite U1. cbn [bind]. unfold modify. rewrite (get_holds _ _ _ _ _ _ U2). cbn [bind].
    destruct (put_holds _ _ _ _ _ (set_right (set_left n 0) 0) _ U2) as [Q1 Q2].
    set (h3 := put h2 a _) in *.
    assert (Q3 : holds h3 (ccells root (Z.of_nat (length (inorder t))) c (raddr t2) ++ (a, set_right (set_left n 0) 0) :: tcells t2)) by (unfold lay in Q1; hperm Q1).
    assert (EL : inorder t = (cl c ++ inorder l) ++ (a, (k, v)) :: inorder r ++ cr c).
    { rewrite E3. cbn [inorder]. repeat (rewrite <- app_assoc; cbn [app]). reflexivity. }
    assert (EL' : inorder (plug c t2) = (cl c ++ inorder l) ++ inorder r ++ cr c).
    { rewrite inorder_plug, U3. repeat rewrite <- app_assoc. reflexivity. }
    assert (ELn : Z.of_nat (length (inorder t)) - 1 = Z.of_nat (length (inorder (plug c t2)))).
    { rewrite EL, EL'. rewrite !app_length. cbn [length]. rewrite ?app_length. lia. }
    destruct (set_root_len h3 root _ c (raddr t2) _ (Z.of_nat (length (inorder t)) - 1) Q3) as (rn & G1 & G2 & G3 & G4).
    rewrite G1. cbn [bind]. rewrite G2, ELn. 
    assert (LT : (Z.of_nat (length (inorder (plug c t2))) <? 0) = false) by (apply Z.ltb_ge; lia). rewrite LT.
    rewrite ELn in G3, G4. set (h4 := put h3 root _) in *.
    rewrite EL in G. destruct (around key _ _ _ Pk G Ek) as [AR1 AR2].
    exists h4, (plug c t2), (cl c ++ inorder l), (inorder r ++ cr c).
    split; [reflexivity|]. split; [apply mcells_plug; hperm G3|]. split.
    { destruct G4 as [_ G4]. destruct Q2 as [_ Q2]. destruct U5 as [_ U5]. destruct E5 as [_ E5].
      split; [unfold h4, h3; cbn; lia|]. intros b Hb HC. pose proof (E4 b) as X1. pose proof (U4 b) as X2.
      rewrite HC in X1.
      rewrite G4; [rewrite Q2; [rewrite U5; [apply E5; auto|..]|..]|..]; try (unfold h3; cbn [next put]; lia); unfold lay in *; cnts; lia. }
    split; [unfold h4, h3; cbn; lia|]. split.
    { intro x. rewrite <- E4, <- U4. unfold lay. rewrite cnt_plug. cnts.
      rewrite (cnt_hole _ _ root (Z.of_nat (length (inorder (plug c t2)))) (Z.of_nat (length (inorder t))) c (raddr t2) (raddr t2)). lia. }
    split; [exact AR1|]. split; [exact AR2|]. split; [exact EL'|]. split.
    { rewrite EL'. eapply good_remove; exact G. }
    right. exists (a, (k, v)). split; auto.
Qed.

(** ** Keys *)
Lemma getKeys_ok : forall fuel (h : heap) a pr k v (l r : tree) L acc,
  (size K V (T a pr k v l r) <= fuel)%nat -> holds h (tcells (T a pr k v l r) ++ L) ->
  getKeys fuel h a acc = Ok (acc ++ map (fun e => ekey e) (inorder (T a pr k v l r))).
Proof.
  induction fuel as [|fuel IH]; intros h a pr k v l r L acc Hf H; [cbn in Hf; lia|].
  cbn [getKeys]. cbn [tcells app] in H. rewrite (get_holds _ _ _ _ _ _ H). cbn [bind mk n_left n_right n_key].
  cbn [size] in Hf.
  assert (HL : (if raddr l =? 0 then Ok acc else getKeys fuel h (raddr l) acc) = Ok (acc ++ map (fun e => ekey e) (inorder l))).
  { destruct l as [|al pl kl vl ll lr]; [cbn; now rewrite app_nil_r|]. cbn [raddr] in *.
    assert (H2 : holds h (tcells (T al pl kl vl ll lr) ++ (a, mk pr k v al (raddr r)) :: tcells r ++ L)) by (hperm H).
    pose proof H2 as H3. cbn [tcells app] in H3. pose proof (addr_holds _ _ _ _ _ _ H3).
    destruct (Z.eqb_spec al 0); [contradiction|]. eapply IH; [|exact H2]. lia. }
  rewrite HL. cbn [bind].
  destruct r as [|ar prr kr vr rl rr].
  - cbn [raddr]. rewrite Z.eqb_refl. cbn [inorder]. rewrite map_app. cbn. rewrite <- app_assoc. reflexivity.
  - cbn [raddr] in *.
    assert (H2 : holds h (tcells (T ar prr kr vr rl rr) ++ (a, mk pr k v (raddr l) ar) :: tcells l ++ L)) by (hperm H).
    pose proof H2 as H3. cbn [tcells app] in H3. pose proof (addr_holds _ _ _ _ _ _ H3).
    destruct (Z.eqb_spec ar 0); [contradiction|]. rewrite (IH h ar prr kr vr rl rr _ ((acc ++ map (fun e => ekey e) (inorder l)) ++ [k]) ltac:(lia) H2).
    f_equal. change (inorder (T a pr k v l (T ar prr kr vr rl rr))) with (inorder l ++ (a, (k, v)) :: inorder (T ar prr kr vr rl rr)).
    rewrite map_app. cbn [map]. repeat rewrite <- app_assoc. reflexivity.
Qed.

Lemma keys_ok : forall fuel (h : heap) root (t : tree),
  (room t <= fuel)%nat -> holds h (lay root (Z.of_nat (length (inorder t))) [] t) ->
  doBuiltinKeys fuel h root = Ok (map fst (map snd (inorder t))).
Proof.
  intros fuel h root t Hf H. unfold doBuiltinKeys. unfold lay in H. cbn [ccells app] in H.
  pose proof (addr_holds _ _ _ _ _ _ H) as Hr. destruct (Z.eqb_spec root 0) as [?|_]; [contradiction|].
  assert (HK : getKeys fuel h root [] = Ok (map (fun e => ekey e) (inorder t))).
  { unfold room in Hf. destruct fuel as [|fuel]; [lia|]. cbn [getKeys]. rewrite (get_holds _ _ _ _ _ _ H).
    cbn [bind sent n_left n_right n_key]. rewrite Z.eqb_refl. cbn [bind].
    destruct t as [|a pr k v l r]; [reflexivity|]. cbn [raddr] in *.
    assert (H2 : holds h (tcells (T a pr k v l r) ++ [(root, sent (Z.of_nat (length (inorder (T a pr k v l r)))) a)])) by (hperm H).
    pose proof H2 as H3. cbn [tcells app] in H3. pose proof (addr_holds _ _ _ _ _ _ H3).
    destruct (Z.eqb_spec a 0); [contradiction|].
    exact (getKeys_ok fuel h a pr k v l r _ [] ltac:(lia) H2). }
  rewrite HK. cbn [bind]. rewrite (get_holds _ _ _ _ _ _ H). cbn [bind sent n_len].
  rewrite !map_length, Z.ltb_irrefl, Z.eqb_refl. f_equal. rewrite map_map. apply map_ext. intros [a [k v]]. reflexivity.
Qed.

(** ** Copying *)
Lemma copyNode_ok : forall fuel (h : heap) a pr k v (l r : tree) L,
  (size K V (T a pr k v l r) <= fuel)%nat -> holds h (tcells (T a pr k v l r) ++ L) -> 0 < next h ->
  exists h' a' (l' r' : tree), copyNode fuel h a = Ok (h', a') /\
    holds h' (tcells (T a' pr k v l' r') ++ tcells (T a pr k v l r) ++ L) /\
    map snd (inorder (T a' pr k v l' r')) = map snd (inorder (T a pr k v l r)) /\
    framed [] h h' /\
    (forall x, (x < next h)%Z -> cnt x (tcells (T a' pr k v l' r')) = O).
Proof.
  induction fuel as [|fuel IH]; intros h a pr k v l r L Hf H N; [cbn in Hf; lia|].
  cbn [copyNode]. cbn [size] in Hf. pose proof H as H0. cbn [tcells app] in H0.
  rewrite (get_holds _ _ _ _ _ _ H0). cbn [bind mk n_left n_right n_len n_prio n_key n_data].
  destruct (alloc_holds _ _ h _ H N) as (h1 & A1 & A2 & A3 & A4). rewrite A1.
  set (a' := next h) in *. fold (mk (K:=K) (V:=V) pr k v 0 0).
  destruct (put_holds _ _ _ _ _ (mk pr k v 0 0) _ A2) as [B1 B2].
  set (h2 := put h1 a' _) in *.
  assert (B3 : framed [] h h2).
  { destruct A3 as [A3 A3']. split; [unfold h2; cbn [next put]; lia|]. intros b Hb HC. unfold h2. cbn.
    destruct (Z.eqb_spec b a'); [unfold a' in *; lia|]. now apply A3'. }
  assert (HL : exists h3 (l' : tree),
     (if raddr l =? 0 then Ok h2 else let* (h, l) := copyNode fuel h2 (raddr l) in modify h a' (fun x => set_left x l)) = Ok h3 /\
     holds h3 ((a', mk pr k v (raddr l') 0) :: tcells l' ++ tcells (T a pr k v l r) ++ L) /\
     map snd (inorder l') = map snd (inorder l) /\ framed [] h h3 /\
     (forall x, (x < next h)%Z -> cnt x (tcells l') = O)).
  { destruct l as [|al pl kl vl ll lr].
    - exists h2, E. cbn [raddr]. rewrite Z.eqb_refl. repeat split; try apply B1; try apply B3; auto.
    - cbn [raddr].
      assert (H2 : holds h2 (tcells (T al pl kl vl ll lr) ++ (a', mk pr k v 0 0) :: (a, mk pr k v al (raddr r)) :: tcells r ++ L)) by (hperm B1).
      pose proof H2 as H3. cbn [tcells app] in H3. pose proof (addr_holds _ _ _ _ _ _ H3).
      destruct (Z.eqb_spec al 0); [contradiction|].
      destruct (IH h2 al pl kl vl ll lr _ ltac:(lia) H2) as (h3 & a2 & l2 & r2 & C1 & C2 & C3 & C4 & C5);
        [unfold h2; cbn [next put]; lia|].
      rewrite C1. cbn [bind].
      assert (C2' : holds h3 ((a', mk pr k v 0 0) :: tcells (T a2 pl kl vl l2 r2) ++ tcells (T a pr k v (T al pl kl vl ll lr) r) ++ L)) by (hperm C2).
      destruct (modify_holds _ _ _ _ _ _ (fun x => set_left x a2) C2') as (h4 & D1 & D2 & D3).
      rewrite D1. exists h4, (T a2 pl kl vl l2 r2). split; [reflexivity|]. split; [exact D2|]. split; [exact C3|].
      assert (C6 : forall x, (x < next h)%Z -> cnt x (tcells (T a2 pl kl vl l2 r2)) = O).
      { intros x Hx. apply C5. unfold h2. cbn [next put]. lia. }
      split; [|exact C6].
      unfold modify in D1. rewrite (get_holds _ _ _ _ _ _ C2') in D1. cbn [bind] in D1. injection D1 as <-.
      destruct C4 as [C4 C4']. destruct B3 as [B3 B3']. split; [cbn [next put]; lia|].
      intros b Hb HC. cbn. destruct (Z.eqb_spec b a'); [unfold a' in *; lia|]. rewrite C4'; [auto | lia | reflexivity]. }
  destruct HL as (h3 & l' & L1 & L2 & L3 & L4 & L5). rewrite L1. cbn [bind].
  assert (NX : next h < next h3).
  { assert (Q : a' < next h3) by exact (addr_lt _ _ _ _ _ _ L2). exact Q. }
  assert (HR : exists h4 (r' : tree),
     (if raddr r =? 0 then Ok h3 else let* (h, r) := copyNode fuel h3 (raddr r) in modify h a' (fun x => set_right x r)) = Ok h4 /\
     holds h4 ((a', mk pr k v (raddr l') (raddr r')) :: tcells l' ++ tcells r' ++ tcells (T a pr k v l r) ++ L) /\
     map snd (inorder r') = map snd (inorder r) /\ framed [] h h4 /\
     (forall x, (x < next h)%Z -> cnt x (tcells r') = O)).
  { destruct r as [|ar prr kr vr rl rr].
    - exists h3, E. cbn [raddr]. rewrite Z.eqb_refl. repeat split; try apply L2; try apply L4; auto.
    - cbn [raddr].
      assert (H2 : holds h3 (tcells (T ar prr kr vr rl rr) ++ (a', mk pr k v (raddr l') 0) :: tcells l' ++ (a, mk pr k v (raddr l) ar) :: tcells l ++ L)) by (hperm L2).
      pose proof H2 as H3. cbn [tcells app] in H3. pose proof (addr_holds _ _ _ _ _ _ H3).
      destruct (Z.eqb_spec ar 0); [contradiction|].
      destruct (IH h3 ar prr kr vr rl rr _ ltac:(lia) H2) as (h4 & a2 & l2 & r2 & C1 & C2 & C3 & C4 & C5); [lia|].
      rewrite C1. cbn [bind].
      assert (C2' : holds h4 ((a', mk pr k v (raddr l') 0) :: tcells l' ++ tcells (T a2 prr kr vr l2 r2) ++ tcells (T a pr k v l (T ar prr kr vr rl rr)) ++ L)) by (hperm C2).
      destruct (modify_holds _ _ _ _ _ _ (fun x => set_right x a2) C2') as (h5 & D1 & D2 & D3).
      rewrite D1. exists h5, (T a2 prr kr vr l2 r2). split; [reflexivity|]. split; [exact D2|]. split; [exact C3|].
      assert (C6 : forall x, (x < next h)%Z -> cnt x (tcells (T a2 prr kr vr l2 r2)) = O).
      { intros x Hx. apply C5. lia. }
      split; [|exact C6].
      unfold modify in D1. rewrite (get_holds _ _ _ _ _ _ C2') in D1. cbn [bind] in D1. injection D1 as <-.
      destruct C4 as [C4 C4']. destruct L4 as [L4 L4']. split; [cbn [next put]; lia|].
      intros b Hb HC. cbn. destruct (Z.eqb_spec b a'); [unfold a' in *; lia|]. rewrite C4'; [auto | lia | reflexivity]. }
  destruct HR as (h4 & r' & R1 & R2 & R3 & R4 & R5). rewrite R1. cbn [bind].
  exists h4, a', l', r'. split; [reflexivity|]. split; [hperm R2|]. split.
  { cbn [inorder]. rewrite !map_app, !map_cons. apply f_equal2; [exact L3|]. apply f_equal2; [reflexivity | exact R3]. }
  split; [exact R4|]. intros x Hx. cnts. rewrite L5, R5; auto. rewrite one_other; [reflexivity | unfold a'; lia].
Qed.

Lemma copy_ok : forall fuel (h : heap) root (t : tree),
  (room t <= fuel)%nat -> holds h (lay root (Z.of_nat (length (inorder t))) [] t) -> 0 < next h ->
  exists h' root' (t' : tree), doBuiltinCopyMap fuel h root = Ok (h', root') /\
    holds h' (lay root' (Z.of_nat (length (inorder t'))) [] t' ++ lay root (Z.of_nat (length (inorder t))) [] t) /\
    map snd (inorder t') = map snd (inorder t) /\ framed [] h h' /\
    (forall x, (x < next h)%Z -> cnt x (lay root' (Z.of_nat (length (inorder t'))) [] t') = O).
Proof.
  intros fuel h root t Hf H N. unfold doBuiltinCopyMap. pose proof H as H0. unfold lay in H0. cbn [ccells app] in H0.
  pose proof (addr_holds _ _ _ _ _ _ H0) as Hr. destruct (Z.eqb_spec root 0) as [?|_]; [contradiction|].
  unfold room in Hf. destruct fuel as [|fuel]; [lia|]. cbn [copyNode]. rewrite (get_holds _ _ _ _ _ _ H0).
  cbn [bind sent n_left n_right n_len n_prio n_key n_data]. rewrite Z.eqb_refl.
  destruct (alloc_holds _ _ h _ H N) as (h1 & A1 & A2 & A3 & A4). rewrite A1. cbn [bind].
  set (a' := next h) in *. set (len := Z.of_nat (length (inorder t))) in *. fold (sent (K:=K) (V:=V) len 0).
  destruct (put_holds _ _ _ _ _ (sent len 0) _ A2) as [B1 B2].
  set (h2 := put h1 a' _) in *.
  assert (B3 : framed [] h h2).
  { destruct A3 as [A3 A3']. split; [unfold h2; cbn [next put]; lia|]. intros b Hb HC. unfold h2. cbn.
    destruct (Z.eqb_spec b a'); [unfold a' in *; lia|]. now apply A3'. }
  destruct t as [|a pr k v l r].
  - cbn [raddr]. rewrite Z.eqb_refl. cbn [bind]. exists h2, a', E. split; [reflexivity|].
    split; [unfold lay in B1 |- *; fold len; hperm B1|]. split; [reflexivity|]. split; [exact B3|].
    intros x Hx. unfold lay. cbn. rewrite one_other; [reflexivity | unfold a'; lia].
  - cbn [raddr].
    assert (H2 : holds h2 (tcells (T a pr k v l r) ++ (a', sent len 0) :: [(root, sent len a)])).
    { unfold lay in B1. hperm B1. }
    pose proof H2 as H3. cbn [tcells app] in H3. pose proof (addr_holds _ _ _ _ _ _ H3).
    destruct (Z.eqb_spec a 0); [contradiction|].
    destruct (copyNode_ok fuel h2 a pr k v l r _ ltac:(lia) H2) as (h3 & a2 & l2 & r2 & C1 & C2 & C3 & C4 & C5);
      [unfold h2; cbn [next put]; lia|].
    rewrite C1. cbn [bind].
    assert (C2' : holds h3 ((a', sent len 0) :: tcells (T a2 pr k v l2 r2) ++ tcells (T a pr k v l r) ++ [(root, sent len a)])) by (hperm C2).
    destruct (modify_holds _ _ _ _ _ _ (fun x => set_right x a2) C2') as (h4 & D1 & D2 & D3).
    rewrite D1. cbn [bind]. exists h4, a', (T a2 pr k v l2 r2). split; [reflexivity|].
    assert (LE : Z.of_nat (length (inorder (T a2 pr k v l2 r2))) = len).
    { unfold len. f_equal. pose proof (f_equal (@length _) C3) as X. rewrite !map_length in X. exact X. }
    rewrite LE. unfold lay. split.
    { eapply holds_perm; [exact D2 | intro; cnts; lia | intro F; fors; change (set_right (sent len 0) a2) with (sent (K:=K) (V:=V) len a2) in F; tauto]. }
    split; [exact C3|]. split.
    { unfold modify in D1. rewrite (get_holds _ _ _ _ _ _ C2') in D1. cbn [bind] in D1. injection D1 as <-.
      destruct C4 as [C4 C4']. destruct B3 as [B3 B3']. split; [cbn [next put]; lia|].
      intros b Hb HC. cbn. destruct (Z.eqb_spec b a'); [unfold a' in *; lia|]. rewrite C4'; [auto | lia | reflexivity]. }
    intros x Hx. specialize (C5 x). cnts. rewrite one_other by (unfold a'; lia). rewrite Nat.add_0_l. cbn [raddr].
    apply C5. unfold h2; cbn [next put]; lia.
Qed.
End Ops.

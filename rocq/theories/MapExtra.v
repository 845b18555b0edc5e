(** Refinement of whole operation sequences, and the statements used in PropertiesMap. *)
From Coq Require Import ZArith Lia Bool List Sorted.
From Verif Require Import Base MapModel MapSpec MapTree MapProofs MapOps.
Import ListNotations.
Local Open Scope Z_scope.

Section Extra.
Variables K V : Type.
Variable v0 : V.
Variable cmp : K -> K -> outcome Z.
Variable ord : K -> K -> comparison.
Variable P : K -> Prop.
Hypothesis TO : total_order ord P.
Hypothesis DEC : decides ord P cmp.
Notation heap := (heap K V).
Notation tree := (tree K V).
Notation entry := (entry K V).
Notation good := (good K V ord P).
Notation lay := (lay K V).

Definition rep (h : heap) (root : Z) (s : option (fmap_t K V)) (L : list (Z * mnode K V)) (es : list entry) : Prop :=
  (root = 0 /\ s = None /\ L = [] /\ es = []) \/
  (exists t : tree, L = lay root (Z.of_nat (length (inorder t))) [] t /\ holds h L /\ good (inorder t) /\
     es = inorder t /\ s = Some (map snd (inorder t))).

Definition slen (s : option (fmap_t K V)) : nat := match s with Some l => length l | None => O end.
Definition fuel_for (n : nat) : nat := (n * (n + 3) + 2)%nat.

Lemma size_inorder : forall t : tree, size K V t = length (inorder t).
Proof. induction t; cbn; [reflexivity|]. rewrite app_length. cbn. lia. Qed.
Lemma room_le : forall t : tree, (room K V t <= fuel_for (length (inorder t)))%nat.
Proof. intro t. unfold room, fuel_for. pose proof (mu_le K V t). rewrite size_inorder in *. nia. Qed.
Lemma fuel_mono : forall n m, (n <= m)%nat -> (fuel_for n <= fuel_for m)%nat.
Proof. intros. unfold fuel_for. nia. Qed.

Lemma slen_map : forall es : list entry, slen (Some (map snd es)) = length es.
Proof. intro. cbn. apply map_length. Qed.
Lemma map_snd_app : forall (A B : list entry), map snd (A ++ B) = map snd A ++ map snd B.
Proof. intros. apply map_app. Qed.

(** Allocating a fresh sentinel. *)
Lemma alloc_rep : forall (h : heap), 0 < next h ->
  exists h', doAllocMap h = (h', next h) /\ rep h' (next h) (Some []) [(next h, sent 0 0)] [] /\ framed [] h h' /\ next h' = next h + 1.
Proof.
  intros h N. destruct (alloc_holds _ _ h [] ) as (h' & A1 & A2 & A3 & A4); [split; [intro; cbn; lia | constructor] | exact N|].
  exists h'. split; [exact A1|]. split; [|split; auto]. right. exists E. split; [reflexivity|]. split; [exact A2|].
  split; [split; constructor|]. split; reflexivity.
Qed.

Definition step_res (h : heap) (L : list (Z * mnode K V)) (es : list entry) (o : op K V)
    (sr : outcome (option (fmap_t K V) * out K V)) (res : outcome (heap * Z * out K V)) : Prop :=
  match sr with
  | Ok (s', x) => exists h' root' L' es', res = Ok (h', root', x) /\ rep h' root' s' L' es' /\ framed L h h' /\
      (forall y, y < next h -> (cnt y L' <= cnt y L)%nat) /\
      (forall e, In e es -> untouched ord (ekey e) o -> In e es')
  | Err e => res = Err e
  | UB => False
  end.

Lemma getPtr_rep : forall fuel (h : heap) root s L es key r, rep h root s L es -> P key -> 0 < next h ->
  (fuel_for (slen s) <= fuel)%nat ->
  let l := entries s in
  exists h' (A B : list entry) a k v L' (t' : tree) (c : ctx K V) pr tl tr,
    doGetMapPtr v0 cmp fuel h root key r = Ok (h', (if root =? 0 then next h else root), a) /\
    L' = lay (if root =? 0 then next h else root) (Z.of_nat (length (inorder t'))) [] t' /\
    t' = plug c (T a pr k v tl tr) /\ A = cl c ++ inorder tl /\ B = inorder tr ++ cr c /\
    holds h' (lay (if root =? 0 then next h else root) (Z.of_nat (length (inorder t'))) c (T a pr k v tl tr)) /\
    inorder t' = A ++ (a, (k, v)) :: B /\ good (A ++ (a, (k, v)) :: B) /\
    framed L h h' /\ (forall y, y < next h -> (cnt y L' <= cnt y L)%nat) /\
    ord key k = Eq /\ Forall (below K V ord key) A /\ Forall (above K V ord key) B /\
    (es = A ++ (a, (k, v)) :: B \/ (es = A ++ B /\ v = v0 /\ k = key)) /\
    l = map snd es.
Proof.
  intros fuel h root s L es key r R Pk N Hf l.
  assert (X : exists h1 root1 (t : tree), (if root =? 0 then doAllocMap h else (h, root)) = (h1, root1) /\
     root1 = (if root =? 0 then next h else root) /\ root1 <> 0 /\
     holds h1 (lay root1 (Z.of_nat (length (inorder t))) [] t) /\ good (inorder t) /\ es = inorder t /\ l = map snd es /\ framed L h h1 /\
     0 < next h1 /\ (room K V t <= fuel)%nat /\ next h <= next h1 /\
     (forall y, y < next h -> (cnt y (lay root1 (Z.of_nat (length (inorder t))) [] t) <= cnt y L)%nat)).
  { destruct R as [(-> & -> & -> & ->)|(t & -> & H & G & -> & ->)].
    - rewrite Z.eqb_refl. destruct (alloc_rep h N) as (h1 & A1 & A2 & A3 & A4).
      destruct A2 as [(B1 & B2 & _)|(t & B1 & B2 & B3 & B4 & B5)]; [discriminate|].
      destruct t; [|exfalso; cbn in B4; destruct (inorder t1); discriminate].
      exists h1, (next h), E. rewrite A1. rewrite B1 in B2.
      split; [reflexivity|]. split; [reflexivity|]. split; [lia|]. split; [exact B2|]. split; [split; constructor|]. split; [reflexivity|].
      split; [reflexivity|]. split; [exact A3|]. split; [lia|]. split; [etransitivity; [apply (room_le E) | exact Hf]|]. split; [lia|].
      intros y Hy. unfold lay. cbn. rewrite one_other by lia. lia.
    - assert (Hr : root <> 0).
      { unfold MapProofs.lay in H. cbn [ccells app] in H. exact (addr_holds _ _ _ _ _ _ H). }
      destruct (Z.eqb_spec root 0); [contradiction|].
      exists h, root, t. split; [reflexivity|]. split; [reflexivity|]. split; [exact Hr|]. split; [exact H|]. split; [exact G|].
      split; [reflexivity|]. split; [reflexivity|]. split; [apply framed_refl|]. split; [exact N|].
      split; [pose proof (room_le t); rewrite slen_map in Hf; lia|]. split; [lia | intros; lia]. }
  destruct X as (h1 & root1 & t & X1 & X2 & X3 & X4 & X5 & X6 & X7 & X8 & X9 & X10 & X11 & X12).
  destruct (getPtr_ok K V v0 cmp ord P TO DEC fuel h1 root1 t key r X10 Pk X4 X5 X9)
    as (h' & c & a & pr & k & v & tl & tr & E1 & E2 & E3 & E4 & E5 & E6 & E7 & E8 & E9).
  set (t' := plug c (T a pr k v tl tr)) in *.
  assert (EL : inorder t' = (cl c ++ inorder tl) ++ (a, (k, v)) :: inorder tr ++ cr c).
  { unfold t'. rewrite inorder_plug. cbn [inorder]. repeat (rewrite <- app_assoc; cbn [app]). reflexivity. }
  exists h', (cl c ++ inorder tl), (inorder tr ++ cr c), a, k, v, (lay root1 (Z.of_nat (length (inorder t'))) [] t'), t', c, pr, tl, tr.
  rewrite <- X2. split.
  { unfold doGetMapPtr in *. rewrite X1. rewrite <- E1. destruct (Z.eqb_spec root1 0); [contradiction | reflexivity]. }
  split; [reflexivity|]. split; [reflexivity|]. split; [reflexivity|]. split; [reflexivity|]. split; [exact E2|]. split; [exact EL|].
  split; [rewrite <- EL; exact E8|].
  split.
  { destruct X8 as [X8 X8']. destruct E3 as [E3 E3']. split; [lia|]. intros b Hb HC. rewrite E3'; [auto | lia |]. specialize (X12 b Hb). lia. }
  split. { intros y Hy. rewrite E4 by lia. apply X12; exact Hy. }
  split; [exact E5|]. split; [exact E6|]. split; [exact E7|]. split; [|exact X7].
  rewrite X6. destruct E9 as [E9|E9]; [left; rewrite E9; exact EL | right; exact E9].
Qed.

(** m[k] = w, keeping track of the address of the entry. *)
Lemma set_ok : forall fuel (h : heap) root s L es key w r, rep h root s L es -> P key -> 0 < next h ->
  (fuel_for (slen s) <= fuel)%nat ->
  exists h1 h2 root1 a k L2 es2, doGetMapPtr v0 cmp fuel h root key r = Ok (h1, root1, a) /\ storeItem h1 a w = Ok h2 /\
    rep h2 root1 (Some (s_set ord (entries s) key w)) L2 es2 /\
    In (a, (k, w)) es2 /\ ord key k = Eq /\ P k /\ framed L h h2 /\
    (forall y, y < next h -> (cnt y L2 <= cnt y L)%nat) /\
    (forall e, In e es -> ord key (ekey e) <> Eq -> In e es2).
Proof.
  intros fuel h root s L es key w r R Pk N Hf.
  destruct (getPtr_rep fuel h root s L es key r R Pk N Hf) as
      (h' & A & B & a & k & v & L' & t' & c & pr & tl & tr & E1 & E2 & E3 & E4a & E4b & E4 & E5 & E6 & E7 & E8 & E9 & E10 & E11 & E12 & E13).
  set (root1 := if root =? 0 then next h else root) in *.
  assert (C1 : holds h' ((a, mk pr k v (raddr tl) (raddr tr)) :: tcells tl ++ tcells tr ++ ccells root1 (Z.of_nat (length (inorder t'))) c a)).
  { unfold MapProofs.lay in E4. cbn [raddr] in E4. hperm E4. }
  destruct (put_holds _ _ _ _ _ (set_data (mk pr k v (raddr tl) (raddr tr)) w) _ C1) as [Q1 Q2].
  set (t2 := plug c (T a pr k w tl tr)).
  exists h', (put h' a (set_data (mk pr k v (raddr tl) (raddr tr)) w)), root1, a, k, (lay root1 (Z.of_nat (length (inorder t2))) [] t2), (inorder t2).
  set (h2 := put h' a _) in *.
  split; [exact E1|]. split.
  { unfold storeItem. rewrite (get_holds _ _ _ _ _ _ C1). reflexivity. }
  assert (LE : length (inorder t2) = length (inorder t')).
  { rewrite E5. unfold t2. rewrite inorder_plug, E4a, E4b. cbn [inorder]. rewrite !app_length. cbn [length]. rewrite !app_length. lia. }
  assert (EL2 : inorder t2 = A ++ (a, (k, w)) :: B).
  { unfold t2. rewrite inorder_plug, E4a, E4b. cbn [inorder]. repeat (rewrite <- app_assoc; cbn [app]). reflexivity. }
  assert (H2 : holds h2 (lay root1 (Z.of_nat (length (inorder t2))) [] t2)).
  { apply mcells_plug. rewrite LE. cbn [raddr].
    eapply holds_perm; [exact Q1 | intro; cnts; lia | intro F; fors;
      change (set_data (mk pr k v (raddr tl) (raddr tr)) w) with (mk pr k w (raddr tl) (raddr tr)) in F; tauto]. }
  assert (RP : rep h2 root1 (Some (map snd (inorder t2))) (lay root1 (Z.of_nat (length (inorder t2))) [] t2) (inorder t2)).
  { right. exists t2. split; [reflexivity|]. split; [exact H2|]. split; [rewrite EL2; apply good_replace with (a := a) (v := v); auto; exact E6|]. split; reflexivity. }
  assert (CP : forall y n, cnt y (ccells root1 n [] (raddr t') ++ tcells t') = cnt y (ccells root1 n c a ++ tcells (T a pr k v tl tr)))
    by (intros; rewrite E3; apply cnt_plug).
  assert (CT : forall y, cnt y (lay root1 (Z.of_nat (length (inorder t2))) [] t2) = cnt y L').
  { intro y. rewrite E2. rewrite LE. unfold MapProofs.lay at 2. rewrite CP. unfold MapProofs.lay, t2. rewrite cnt_plug. cnts. lia. }
  assert (SE : s_set ord (entries s) key w = map snd (inorder t2)).
  { transitivity (s_set ord (map snd es) key w); [f_equal; exact E13|]. rewrite EL2, map_snd_app.
    destruct E12 as [->|(-> & _ & ->)]; rewrite map_snd_app, s_set_below by exact E10; f_equal.
    - cbn. now rewrite E9.
    - rewrite s_set_above by exact E11. reflexivity. }
  rewrite SE. split; [exact RP|].
  split; [rewrite EL2, in_app_iff; right; now left|]. split; [exact E9|].
  split; [destruct E6 as [_ E6]; apply Forall_app in E6; destruct E6 as [_ E6]; inversion E6; auto|]. split; [|split].
  + destruct E7 as [E7 E7']. destruct Q2 as [Q2 Q2']. split; [lia|]. intros b Hb HC. rewrite Q2'; [auto | lia |].
    specialize (E8 b Hb). rewrite E2 in E8. unfold MapProofs.lay in E8. rewrite CP in E8. clear -E8 HC. cnts. lia.
  + intros y Hy. rewrite CT. apply E8; exact Hy.
  + intros e He U. rewrite EL2.
    assert (He' : In e (A ++ B)).
    { destruct E12 as [->|(-> & _)]; [|exact He]. rewrite in_app_iff in *. destruct He as [He|[<-|He]]; auto.
      exfalso. apply U. cbn. exact E9. }
    rewrite in_app_iff in *. cbn. tauto.
Qed.

Lemma step_ok : forall fuel (h : heap) root s L es o, rep h root s L es -> op_keys P o -> 0 < next h ->
  (fuel_for (slen s) <= fuel)%nat ->
  step_res h L es o (s_step v0 ord s o) (step v0 cmp fuel h root o).
Proof.
  intros fuel h root s L es o R Pk N Hf. destruct o as [key r|key w r|key|key| | |]; cbn [op_keys] in Pk.
  - (* OGet *)
    destruct (getPtr_rep fuel h root s L es key r R Pk N Hf) as
      (h' & A & B & a & k & v & L' & t' & c & pr & tl & tr & E1 & E2 & E3 & E4a & E4b & E4 & E5 & E6 & E7 & E8 & E9 & E10 & E11 & E12 & E13).
    cbn [step]. rewrite E1. cbn [bind].
    assert (C1 : holds h' ((a, mk pr k v (raddr tl) (raddr tr)) :: tcells tl ++ tcells tr ++ ccells (if root =? 0 then next h else root) (Z.of_nat (length (inorder t'))) c a)).
    { unfold MapProofs.lay in E4. cbn [raddr] in E4. hperm E4. }
    unfold loadItem. rewrite (get_holds _ _ _ _ _ _ C1). cbn [bind mk n_data].
    assert (RP : rep h' (if root =? 0 then next h else root) (Some (map snd (inorder t'))) L' (inorder t')).
    { right. exists t'. split; [exact E2|]. split; [rewrite E2; rewrite E3; apply mcells_plug; rewrite E3 in E4; exact E4|].
      split; [rewrite E5; exact E6|]. split; reflexivity. }
    unfold step_res, s_step. rewrite E13.
    destruct E12 as [E12|(E12 & Ev & Ek')].
    + assert (G1 : s_get ord (map snd es) key = Some v).
      { rewrite E12, map_snd_app. rewrite s_get_below by exact E10. cbn. now rewrite E9. }
      rewrite G1. exists h', (if root =? 0 then next h else root), L', (inorder t').
      split; [reflexivity|]. split; [rewrite E12, <- E5; exact RP|]. split; [exact E7|]. split; [exact E8|].
      intros e He _. rewrite E5, <- E12. exact He.
    + subst v k.
      assert (G1 : s_get ord (map snd es) key = None).
      { rewrite E12, map_snd_app. rewrite s_get_below by exact E10. apply s_get_above; exact E11. }
      rewrite G1. exists h', (if root =? 0 then next h else root), L', (inorder t').
      assert (SE : s_set ord (map snd es) key v0 = map snd (inorder t')).
      { rewrite E12, map_snd_app. rewrite s_set_below by exact E10. rewrite s_set_above by exact E11.
        rewrite E5, map_snd_app. reflexivity. }
      rewrite SE. split; [reflexivity|]. split; [exact RP|]. split; [exact E7|]. split; [exact E8|].
      intros e He _. rewrite E5. rewrite E12 in He. rewrite in_app_iff in *. cbn. tauto.
  - (* OSet *)
    destruct (set_ok fuel h root s L es key w r R Pk N Hf) as (h1 & h2 & root1 & a & k & L2 & es2 & E1 & E2 & E3 & E4 & E5 & E6 & E7 & E8 & E9).
    cbn [step]. rewrite E1. cbn [bind]. rewrite E2. cbn [bind]. unfold step_res, s_step.
    exists h2, root1, L2, es2. split; [reflexivity|]. split; [exact E3|]. split; [exact E7|]. split; [exact E8|].
    intros e He U. apply E9; auto.
  - (* ODelete *)
    destruct R as [(-> & -> & -> & ->)|(t & -> & H & G & -> & ->)].
    + cbn. unfold doBuiltinDeleteMap. reflexivity.
    + pose proof (room_le t) as RL. rewrite slen_map in Hf.
      destruct (delete_ok K V cmp ord P TO DEC fuel h root t key) as (h' & t' & A & B & E1 & E2 & E3 & E4 & E5 & E6 & E7 & E8 & E9 & E10); auto; [lia|].
      cbn [step]. rewrite E1. cbn [bind]. unfold step_res, s_step.
      exists h', root, (lay root (Z.of_nat (length (inorder t'))) [] t'), (inorder t').
      split; [reflexivity|]. split; [|split; [exact E3 | split; [intros; apply E5|]]].
      * right. exists t'. split; [reflexivity|]. split; [exact E2|]. split; [exact E9|]. split; [reflexivity|]. f_equal.
        rewrite E8, map_snd_app. destruct E10 as [->|(e & -> & Ee)]; rewrite map_snd_app, s_del_below by exact E6; f_equal.
        -- now apply s_del_above.
        -- destruct e as [ea [ek ev]]. cbn in *. rewrite Ee. fold (s_del ord (map snd B) key). now apply s_del_above.
      * intros e He U. cbn in U. rewrite E8. destruct E10 as [E10|(e' & E10 & Ee)]; rewrite E10 in He; [exact He|].
        rewrite in_app_iff in *. destruct He as [He|[<-|He]]; auto. contradiction.
  - (* OValidKey *)
    destruct R as [(-> & -> & -> & ->)|(t & -> & H & G & -> & ->)].
    + cbn. unfold doBuiltinValidKey. cbn. exists h, 0, [], []. split; [reflexivity|]. split; [left; auto|]. split; [apply framed_refl|].
      split; [intros; cbn; lia | intros e []].
    + pose proof (room_le t) as RL. rewrite slen_map in Hf. cbn [step]. unfold doBuiltinValidKey.
      assert (Hr : root <> 0) by (unfold MapProofs.lay in H; cbn [ccells app] in H; exact (addr_holds _ _ _ _ _ _ H)).
      destruct (Z.eqb_spec root 0); [contradiction|].
      destruct (getNode_ok K V cmp ord P TO DEC fuel h root _ t key ltac:(lia) Pk H G) as (h' & c & t1 & E1 & E2 & E3 & E4 & E5 & E6 & E7 & E8 & E9).
      rewrite E1. cbn [bind]. pose proof E2 as E2'. unfold MapProofs.lay in E2'. rewrite (rd_loc _ _ _ _ _ _ _ _ E2'). cbn [bind].
      assert (EP : inorder (plug c t1) = inorder t) by (rewrite inorder_plug; symmetry; exact E3).
      assert (RP : rep h' root (Some (map snd (inorder t))) (lay root (Z.of_nat (length (inorder (plug c t1)))) [] (plug c t1)) (inorder t)).
      { right. exists (plug c t1). rewrite EP. split; [reflexivity|]. split; [apply mcells_plug; exact E2|]. split; [exact G|]. split; reflexivity. }
      assert (CT : forall y, cnt y (lay root (Z.of_nat (length (inorder (plug c t1)))) [] (plug c t1)) = cnt y (lay root (Z.of_nat (length (inorder t))) [] t)).
      { intro y. rewrite EP. rewrite <- E4. unfold MapProofs.lay. apply cnt_plug. }
      unfold step_res, s_step.
      destruct E7 as [->|(a & pr & k & v & tl & tr & -> & Ek)].
      * cbn [raddr]. rewrite Z.eqb_refl. cbn [bind].
        assert (SG : s_get ord (map snd (inorder t)) key = None).
        { rewrite E3. cbn [inorder app]. rewrite map_snd_app, s_get_below by exact E8. now apply s_get_above. }
        cbn [entries]. rewrite SG. exists h', root, (lay root (Z.of_nat (length (inorder (plug c E)))) [] (plug c E)), (inorder t).
        split; [reflexivity|]. split; [exact RP|]. split; [exact E5|]. split; [intros; rewrite CT; lia | auto].
      * cbn [raddr] in *.
        assert (H1 : holds h' ((a, mk pr k v (raddr tl) (raddr tr)) :: tcells tl ++ tcells tr ++ ccells root (Z.of_nat (length (inorder t))) c a)) by (hperm E2').
        destruct (Z.eqb_spec a 0) as [E0|_]; [exfalso; exact (addr_holds _ _ _ _ _ _ H1 E0)|].
        rewrite (get_holds _ _ _ _ _ _ H1). cbn [bind mk n_data].
        assert (EL : inorder t = (cl c ++ inorder tl) ++ (a, (k, v)) :: inorder tr ++ cr c).
        { rewrite E3. cbn [inorder]. repeat (rewrite <- app_assoc; cbn [app]). reflexivity. }
        pose proof G as G'. rewrite EL in G'. destruct (around K V ord P TO key _ _ _ Pk G' Ek) as [AR1 AR2].
        assert (SG : s_get ord (map snd (inorder t)) key = Some v).
        { rewrite EL, map_snd_app, s_get_below by exact AR1. cbn. now rewrite Ek. }
        cbn [entries]. rewrite SG. exists h', root, (lay root (Z.of_nat (length (inorder (plug c (T a pr k v tl tr))))) [] (plug c (T a pr k v tl tr))), (inorder t).
        split; [reflexivity|]. split; [exact RP|]. split; [exact E5|]. split; [intros; rewrite CT; lia | auto].
  - (* OLen *)
    cbn [step]. unfold mapLen, step_res, s_step. pose proof R as R0.
    destruct R as [(-> & -> & -> & ->)|(t & -> & H & G & -> & ->)].
    + cbn. exists h, 0, [], []. split; [reflexivity|]. split; [exact R0|]. split; [apply framed_refl|]. split; [intros; cbn; lia | auto].
    + pose proof H as H'. unfold MapProofs.lay in H'. cbn [ccells app] in H'.
      pose proof (addr_holds _ _ _ _ _ _ H') as Hr. destruct (Z.eqb_spec root 0); [contradiction|].
      rewrite (get_holds _ _ _ _ _ _ H'). cbn [bind sent n_len entries]. rewrite map_length.
      exists h, root, (lay root (Z.of_nat (length (inorder t))) [] t), (inorder t).
      split; [reflexivity|]. split; [exact R0|]. split; [apply framed_refl|]. split; [intros; lia | auto].
  - (* OKeys *)
    cbn [step]. unfold step_res, s_step. pose proof R as R0.
    destruct R as [(-> & -> & -> & ->)|(t & -> & H & G & -> & ->)].
    + cbn. exists h, 0, [], []. split; [reflexivity|]. split; [exact R0|]. split; [apply framed_refl|]. split; [intros; cbn; lia | auto].
    + pose proof (room_le t) as RL. rewrite slen_map in Hf.
      rewrite (keys_ok K V fuel h root t); [|lia|exact H]. cbn [bind].
      exists h, root, (lay root (Z.of_nat (length (inorder t))) [] t), (inorder t).
      split; [reflexivity|]. split; [exact R0|]. split; [apply framed_refl|]. split; [intros; lia | auto].
  - (* OMake *)
    destruct (alloc_rep h N) as (h1 & A1 & A2 & A3 & A4). cbn [step]. rewrite A1. unfold step_res, s_step.
    exists h1, (next h), [(next h, sent 0 0)], []. split; [reflexivity|]. split; [exact A2|].
    split; [eapply framed_sub; [exact A3 | intro; cbn; lia]|].
    split; [|intros e _ []]. intros y Hy. cbn. rewrite one_other by lia. lia.
Qed.

Lemma s_step_len : forall s o s' x, s_step v0 ord s o = Ok (s', x) -> (slen s' <= slen s + 1)%nat.
Proof.
  assert (S1 : forall l k v, (length (s_set (V:=V) ord l k v) <= length l + 1)%nat).
  { induction l as [|[k' v'] l IH]; intros k v; cbn; [lia|]. destruct (ord k k'); cbn; [lia|lia|]. specialize (IH k v). lia. }
  assert (S2 : forall l k, (length (s_del (V:=V) ord l k) <= length l)%nat).
  { intros l k. unfold s_del. induction l as [|e l IH]; cbn; [lia|]. destruct (ord k (fst e)); cbn; lia. }
  intros s o s' x H. destruct o; cbn in H.
  - destruct (s_get ord _ k); injection H as <- <-; destruct s as [l|]; cbn; try lia; rewrite S1; lia.
  - injection H as <- <-. destruct s as [l|]; cbn; [apply S1 | lia].
  - destruct s as [l|]; [|discriminate]. injection H as <- <-. cbn. pose proof (S2 l k). lia.
  - injection H as <- <-. lia.
  - injection H as <- <-. lia.
  - injection H as <- <-. lia.
  - injection H as <- <-. cbn. lia.
Qed.

Lemma rep_next : forall L (h h' : heap), framed L h h' -> 0 < next h -> 0 < next h'.
Proof. intros L h h' [H _] N. lia. Qed.

Lemma run_ok : forall ops fuel (h : heap) root s L es, rep h root s L es -> Forall (op_keys P) ops -> 0 < next h ->
  (fuel_for (slen s + length ops) <= fuel)%nat ->
  match s_run v0 ord s ops with
  | Ok (s', xs) => exists h' root' L' es', run v0 cmp fuel h root ops = Ok (h', root', xs) /\ rep h' root' s' L' es' /\ 0 < next h' /\
      (slen s' <= slen s + length ops)%nat /\
      (forall e, In e es -> Forall (untouched ord (ekey e)) ops -> In e es')
  | Err e => run v0 cmp fuel h root ops = Err e
  | UB => False
  end.
Proof.
  induction ops as [|o ops IH]; intros fuel h root s L es R HP N Hf; cbn [s_run run].
  - exists h, root, L, es. split; [reflexivity|]. split; [exact R|]. split; [exact N|]. split; [lia | auto].
  - inversion HP as [|? ? P1 P2]; subst. cbn [length] in Hf.
    assert (F1 : (fuel_for (slen s) <= fuel)%nat) by (etransitivity; [apply fuel_mono | exact Hf]; lia).
    pose proof (step_ok fuel h root s L es o R P1 N F1) as S. unfold step_res in S.
    destruct (s_step v0 ord s o) as [[s1 x]|e|] eqn:Es; cbn [bind]; [|now rewrite S|contradiction].
    destruct S as (h1 & root1 & L1 & es1 & S1 & S2 & S3 & S4 & S5). rewrite S1. cbn [bind].
    pose proof (s_step_len _ _ _ _ Es) as SL.
    assert (F2 : (fuel_for (slen s1 + length ops) <= fuel)%nat) by (etransitivity; [apply fuel_mono | exact Hf]; lia).
    specialize (IH fuel h1 root1 s1 L1 es1 S2 P2 (rep_next _ _ _ S3 N) F2).
    destruct (s_run v0 ord s1 ops) as [[s2 xs]|e|]; cbn [bind]; [|now rewrite IH|contradiction].
    destruct IH as (h2 & root2 & L2 & es2 & I1 & I2 & I3 & I4 & I5). rewrite I1. cbn [bind].
    exists h2, root2, L2, es2. split; [reflexivity|]. split; [exact I2|]. split; [exact I3|]. split; [cbn [length]; lia|].
    intros e He HU. inversion HU; subst. auto.
Qed.

Lemma run_refines : forall ops fuel (h : heap), Forall (op_keys P) ops -> 0 < next h ->
  (fuel_for (length ops) <= fuel)%nat ->
  fmap snd (run v0 cmp fuel h 0 ops) = fmap snd (s_run v0 ord None ops).
Proof.
  intros ops fuel h HP N Hf.
  assert (R : rep h 0 None [] []) by (left; auto).
  pose proof (run_ok ops fuel h 0 None [] [] R HP N Hf) as X.
  destruct (s_run v0 ord None ops) as [[s xs]|e|]; [|now rewrite X|contradiction].
  destruct X as (h' & root' & L' & es' & X1 & _). rewrite X1. reflexivity.
Qed.

(** ** keys(), len() and validkey() *)
Lemma s_get_in : forall (l : list (K * V)) k, (exists v, s_get ord l k = Some v) <-> Exists (fun k' => ord k k' = Eq) (map fst l).
Proof.
  induction l as [|[k' v'] l IH]; intro k; cbn.
  - split; [intros [v H]; discriminate | intro H; inversion H].
  - rewrite Exists_cons. cbn. destruct (ord k k') eqn:Eo.
    + split; [auto | intros _; eauto].
    + rewrite IH. split; [auto | intros [H|H]; [discriminate | auto]].
    + rewrite IH. split; [auto | intros [H|H]; [discriminate | auto]].
Qed.

Lemma keys_complete : forall ops fuel (h : heap) h' root' xs, Forall (op_keys P) ops -> 0 < next h ->
  (fuel_for (length ops) <= fuel)%nat ->
  run v0 cmp fuel h 0 ops = Ok (h', root', xs) ->
  exists l, doBuiltinKeys fuel h' root' = Ok l /\
    StronglySorted (fun x y => ord x y = Lt) l /\
    mapLen h' root' = Ok (Z.of_nat (length l)) /\
    (forall k, P k -> exists h'' b, doBuiltinValidKey cmp fuel h' root' k = Ok (h'', root', b) /\
       (b = true <-> Exists (fun k' => ord k k' = Eq) l)).
Proof.
  intros ops fuel h h' root' xs HP N Hf Hrun.
  assert (R : rep h 0 None [] []) by (left; auto).
  pose proof (run_ok ops fuel h 0 None [] [] R HP N Hf) as X.
  destruct (s_run v0 ord None ops) as [[s ys]|e|]; [|rewrite X in Hrun; discriminate|contradiction].
  destruct X as (h1 & root1 & L1 & es1 & X1 & X2 & X3 & X4 & _). rewrite X1 in Hrun. injection Hrun as -> -> ->.
  cbn [slen] in X4. rewrite Nat.add_0_l in X4.
  assert (F1 : (fuel_for (slen s) <= fuel)%nat) by (etransitivity; [apply fuel_mono | exact Hf]; lia).
  pose proof (step_ok fuel h' root' s L1 es1 OKeys X2 I X3 F1) as SK.
  pose proof (step_ok fuel h' root' s L1 es1 OLen X2 I X3 F1) as SL.
  unfold step_res, s_step in SK, SL. cbn [step] in SK, SL.
  set (l := entries s) in *.
  destruct SK as (h2 & r2 & L2 & e2 & K1 & _). destruct SL as (h3 & r3 & L3 & e3 & M1 & _).
  destruct (doBuiltinKeys fuel h' root') as [ks| |]; cbn [bind] in K1; try discriminate.
  destruct (mapLen h' root') as [n| |]; cbn [bind] in M1; try discriminate.
  injection K1 as _ _ ->. injection M1 as _ _ ->.
  exists (map fst l). split; [reflexivity|]. split; [|split].
  - destruct X2 as [(_ & -> & _ & _)|(t & _ & _ & (G & _) & _ & ->)]; [constructor|]. unfold l. clear -G.
    induction G as [|e es G IH F]; cbn; constructor; [exact IH|]. rewrite map_map. apply Forall_map.
    eapply Forall_impl; [|exact F]. intros [a [k v]] Hx. exact Hx.
  - rewrite map_length. reflexivity.
  - intros k Pk. pose proof (step_ok fuel h' root' s L1 es1 (OValidKey k) X2 Pk X3 F1) as SV.
    unfold step_res, s_step in SV. cbn [step] in SV. fold l in SV.
    destruct SV as (h4 & r4 & L4 & e4 & V1 & V2 & _).
    destruct (doBuiltinValidKey cmp fuel h' root' k) as [[[h5 r5] b]| |] eqn:Ev; cbn [bind] in V1; try discriminate.
    injection V1 as -> -> ->.
    assert (r4 = root').
    { unfold doBuiltinValidKey in Ev. destruct (root' =? 0) eqn:E0; [injection Ev as _ -> _; reflexivity|].
      destruct X2 as [(-> & _)|(t & -> & H & G & _ & ->)]; [discriminate|].
      pose proof (room_le t) as RL. rewrite slen_map in F1.
      destruct (getNode_ok K V cmp ord P TO DEC fuel h' root' _ t k ltac:(lia) Pk H G) as (h6 & c & t1 & E1 & E2 & _).
      rewrite E1 in Ev. cbn [bind] in Ev. destruct (rd h6 root' (loc_of root' c)) as [p| |]; cbn [bind] in Ev; try discriminate.
      destruct (p =? 0); [injection Ev as _ -> _; reflexivity|]. destruct (get h6 p); cbn [bind] in Ev; try discriminate.
      injection Ev as _ -> _. reflexivity. }
    subst r4. eexists; eexists. split; [reflexivity|].
    rewrite <- s_get_in. destruct (s_get ord l k); split; intro HH; eauto; try discriminate. destruct HH; discriminate.
Qed.

(** ** Pointers to items stay valid *)
Lemma cell_of : forall (t : tree) e, In e (inorder t) -> exists pr lp rp, In (fst e, mk pr (ekey e) (snd (snd e)) lp rp) (tcells t).
Proof.
  induction t as [|a0 pr k v l IHl r0 IHr]; intros e He; [destruct He|]. cbn [inorder] in He. rewrite in_app_iff in He. cbn in He.
  destruct He as [He|[<-|He]].
  - destruct (IHl _ He) as (x & y & z & Q). exists x, y, z. cbn. right. rewrite in_app_iff. now left.
  - exists pr, (raddr l), (raddr r0). left. reflexivity.
  - destruct (IHr _ He) as (x & y & z & Q). exists x, y, z. cbn. right. rewrite in_app_iff. now right.
Qed.

Lemma load_entry : forall (h : heap) root s L es a k v, rep h root s L es -> In (a, (k, v)) es -> loadItem h a = Ok v.
Proof.
  intros h root s L es a k v [(_ & _ & _ & ->)|(t & -> & H & _ & -> & _)] Hin; [destruct Hin|].
  destruct (cell_of t _ Hin) as (pr & lp & rp & Q). cbn in Q. destruct H as [_ H]. unfold MapProofs.lay in H.
  apply Forall_app in H. destruct H as [_ H]. rewrite Forall_forall in H. destruct (H _ Q) as (_ & _ & R). cbn in R.
  unfold loadItem, get. rewrite R. reflexivity.
Qed.

Lemma pointer_stable : forall pre ops fuel (h : heap) h1 root1 xs1 k r h2 root2 p w h3 h4 root4 xs4,
  Forall (op_keys P) pre -> P k -> Forall (op_keys P) ops -> 0 < next h ->
  (fuel_for (length pre + 1 + length ops) <= fuel)%nat ->
  run v0 cmp fuel h 0 pre = Ok (h1, root1, xs1) ->
  doGetMapPtr v0 cmp fuel h1 root1 k r = Ok (h2, root2, p) ->
  storeItem h2 p w = Ok h3 ->
  Forall (untouched ord k) ops ->
  run v0 cmp fuel h3 root2 ops = Ok (h4, root4, xs4) ->
  loadItem h4 p = Ok w.
Proof.
  intros pre ops fuel h h1 root1 xs1 k r h2 root2 p w h3 h4 root4 xs4 HP Pk HQ N Hf H1 H2 H4 HU H5.
  assert (R : rep h 0 None [] []) by (left; auto).
  assert (F0 : (fuel_for (length pre) <= fuel)%nat) by (etransitivity; [apply fuel_mono | exact Hf]; lia).
  pose proof (run_ok pre fuel h 0 None [] [] R HP N F0) as X.
  destruct (s_run v0 ord None pre) as [[s ys]|e|]; [|rewrite X in H1; discriminate|contradiction].
  destruct X as (h1' & root1' & L1 & es1 & X1 & X2 & X3 & X4 & _). rewrite X1 in H1. injection H1 as -> -> ->.
  cbn [slen] in X4. rewrite Nat.add_0_l in X4.
  assert (F1 : (fuel_for (slen s) <= fuel)%nat) by (etransitivity; [apply fuel_mono | exact Hf]; lia).
  destruct (set_ok fuel h1 root1 s L1 es1 k w r X2 Pk X3 F1) as (g1 & g2 & rt & a & k' & L2 & es2 & E1 & E2 & E3 & E4 & E5 & E6 & E7 & E8 & E9).
  rewrite H2 in E1. injection E1 as <- <- <-. rewrite H4 in E2. injection E2 as <-.
  pose proof (s_step_len s (OSet k w r) _ _ eq_refl) as SL.
  assert (F2 : (fuel_for (slen (Some (s_set ord (entries s) k w)) + length ops) <= fuel)%nat)
    by (etransitivity; [apply fuel_mono | exact Hf]; lia).
  pose proof (run_ok ops fuel h3 root2 _ L2 es2 E3 HQ (rep_next _ _ _ E7 X3) F2) as Y.
  destruct (s_run v0 ord _ ops) as [[s4 ys4]|e|]; [|rewrite Y in H5; discriminate|contradiction].
  destruct Y as (h4' & root4' & L4 & es4 & Y1 & Y2 & _ & _ & Y5). rewrite Y1 in H5. injection H5 as -> -> ->.
  apply (load_entry h4 root4 s4 L4 es4 p k' w Y2). apply Y5; [exact E4|].
  rewrite Forall_forall in HU, HQ |- *. intros o Ho. specialize (HU o Ho). specialize (HQ o Ho). unfold ekey. cbn [snd fst].
  assert (EQ : forall q, P q -> ord q k <> Eq -> ord q k' <> Eq).
  { intros q Pq U Q. apply U. rewrite (ord_sym K ord P TO k q), (ord_eq K ord P TO k k' q); auto.
    rewrite (ord_sym K ord P TO q k'), Q; auto. }
  destruct o; cbn in *; auto.
Qed.

(** ** Two maps, in particular a map and its copy *)
Lemma rep_off : forall (h h' : heap) root s L es L1, rep h root s L es -> framed L1 h h' ->
  (forall x, (cnt x L >= 1)%nat -> cnt x L1 = O) -> rep h' root s L es.
Proof.
  intros h h' root s L es L1 [H|(t & -> & H & G & -> & ->)] F D; [now left|]. right. exists t.
  split; [reflexivity|]. split; [|auto]. eapply holds_framed; eauto.
Qed.
Lemma rep_old : forall (h : heap) root s L es x, rep h root s L es -> (cnt x L >= 1)%nat -> x < next h.
Proof.
  intros h root s L es x [(_ & _ & -> & _)|(t & -> & [_ H] & _)] C; [cbn in C; lia|].
  revert H C. generalize (lay root (Z.of_nat (length (inorder t))) [] t). induction l as [|[a n] l IH]; intros F C; cbn in C; [lia|].
  inversion F as [|? ? (A & B & _) F']; subst. unfold one in C. destruct (Z.eqb_spec x a); [subst; exact B | apply IH; auto].
Qed.

Definition apart (L1 L2 : list (Z * mnode K V)) : Prop := forall x, (cnt x L1 >= 1)%nat -> cnt x L2 = O.

Lemma run2_ok : forall ops fuel (h : heap) r1 r2 s1 s2 L1 L2 e1 e2, rep h r1 s1 L1 e1 -> rep h r2 s2 L2 e2 -> apart L1 L2 ->
  Forall (fun o => op_keys P (snd o)) ops -> 0 < next h ->
  (fuel_for (slen s1 + slen s2 + length ops) <= fuel)%nat ->
  run2 v0 cmp fuel h r1 r2 ops = s_run2 v0 ord s1 s2 ops.
Proof.
  induction ops as [|[b o] ops IH]; intros fuel h r1 r2 s1 s2 L1 L2 e1 e2 R1 R2 D HP N Hf; [reflexivity|].
  inversion HP as [|? ? P1 P2]; subst. cbn [length] in Hf. cbn [snd] in P1. destruct b; cbn [run2 s_run2].
  - assert (F1 : (fuel_for (slen s2) <= fuel)%nat) by (etransitivity; [apply fuel_mono | exact Hf]; lia).
    pose proof (step_ok fuel h r2 s2 L2 e2 o R2 P1 N F1) as S. unfold step_res in S.
    destruct (s_step v0 ord s2 o) as [[s x]|e|] eqn:Es; cbn [bind]; [|now rewrite S|contradiction].
    destruct S as (h' & r' & L' & es' & S1 & S2 & S3 & S4 & S5). rewrite S1. cbn [bind].
    pose proof (s_step_len _ _ _ _ Es) as SL.
    rewrite (IH fuel h' r1 r' s1 s L1 L' e1 es'); auto.
    + eapply rep_off; eauto.
    + intros x0 Hx. assert (x0 < next h) by exact (rep_old h r1 s1 L1 e1 x0 R1 Hx). specialize (S4 x0 H). specialize (D x0 Hx). lia.
    + exact (rep_next _ _ _ S3 N).
    + etransitivity; [apply fuel_mono | exact Hf]; lia.
  - assert (F1 : (fuel_for (slen s1) <= fuel)%nat) by (etransitivity; [apply fuel_mono | exact Hf]; lia).
    pose proof (step_ok fuel h r1 s1 L1 e1 o R1 P1 N F1) as S. unfold step_res in S.
    destruct (s_step v0 ord s1 o) as [[s x]|e|] eqn:Es; cbn [bind]; [|now rewrite S|contradiction].
    destruct S as (h' & r' & L' & es' & S1 & S2 & S3 & S4 & S5). rewrite S1. cbn [bind].
    pose proof (s_step_len _ _ _ _ Es) as SL.
    assert (D' : apart L2 L1).
    { intros x0 Hx. destruct (cnt x0 L1) eqn:E0; [reflexivity|]. specialize (D x0). lia. }
    rewrite (IH fuel h' r' r2 s s2 L' L2 es' e2); auto.
    + eapply rep_off; eauto.
    + intros x0 Hx. destruct (cnt x0 L2) eqn:E0; [reflexivity|]. assert (x0 < next h) by (eapply rep_old; [exact R2 | lia]).
      specialize (S4 x0 H). specialize (D x0). lia.
    + exact (rep_next _ _ _ S3 N).
    + etransitivity; [apply fuel_mono | exact Hf]; lia.
Qed.

Lemma copy_independent : forall pre ops fuel (h : heap) h1 root1 xs s,
  Forall (op_keys P) pre -> Forall (fun o => op_keys P (snd o)) ops -> 0 < next h ->
  (fuel_for (2 * length pre + length ops) <= fuel)%nat ->
  run v0 cmp fuel h 0 pre = Ok (h1, root1, xs) -> s_run v0 ord None pre = Ok (s, xs) ->
  exists h2 root2, doBuiltinCopyMap fuel h1 root1 = Ok (h2, root2) /\
    run2 v0 cmp fuel h2 root1 root2 ops = s_run2 v0 ord s s ops.
Proof.
  intros pre ops fuel h h1 root1 xs s HP HQ N Hf H1 Hs.
  assert (R : rep h 0 None [] []) by (left; auto).
  assert (F0 : (fuel_for (length pre) <= fuel)%nat) by (etransitivity; [apply fuel_mono | exact Hf]; lia).
  pose proof (run_ok pre fuel h 0 None [] [] R HP N F0) as X. rewrite Hs in X.
  destruct X as (h1' & root1' & L1 & es1 & X1 & X2 & X3 & X4 & _). rewrite X1 in H1. injection H1 as -> ->.
  cbn [slen] in X4. rewrite Nat.add_0_l in X4.
  assert (FF : (fuel_for (slen s + slen s + length ops) <= fuel)%nat) by (etransitivity; [apply fuel_mono | exact Hf]; lia).
  pose proof X2 as X2'.
  destruct X2 as [(-> & -> & -> & ->)|(t & -> & H & G & -> & ->)].
  - exists h1, 0. split; [reflexivity|]. eapply run2_ok; eauto. intros x Hx. reflexivity.
  - destruct (copy_ok K V fuel h1 root1 t) as (h2 & root2 & t2 & C1 & C2 & C3 & C4 & C5).
    + etransitivity; [apply room_le|]. etransitivity; [|exact FF]. apply fuel_mono. rewrite slen_map. lia.
    + exact H.
    + exact X3.
    + exists h2, root2. split; [exact C1|]. apply holds_app in C2. destruct C2 as [C2 C2'].
      eapply run2_ok with (L1 := lay root1 (Z.of_nat (length (inorder t))) [] t) (L2 := lay root2 (Z.of_nat (length (inorder t2))) [] t2) (e1 := inorder t) (e2 := inorder t2); auto.
      * right. exists t. auto.
      * right. exists t2. split; [reflexivity|]. split; [exact C2|]. split; [|split; [reflexivity | now rewrite <- C3]].
        clear -C3 G. destruct G as [G1 G2]. revert C3 G1 G2. generalize (inorder t2) as l2, (inorder t) as l1. 
        intros l2 l1 E0 G1 G2.
        assert (KE : map (fun e => ekey e) l2 = map (fun e => ekey e) l1).
        { transitivity (map fst (map snd l2)); [symmetry; apply map_map|]. rewrite E0. apply map_map. }
        clear E0. revert l1 KE G1 G2. induction l2 as [|e2 l2 IH]; intros [|e1 l1] KE G1 G2; try discriminate; [split; constructor|].
        cbn in KE. injection KE as K1 K2. inversion G1; subst. inversion G2; subst. destruct (IH l1) as [I1 I2]; auto.
        split; constructor; auto; [|rewrite K1; auto].
        rewrite Forall_forall in *. intros x Hx. unfold lt_e in *. rewrite K1.
        apply (in_map (fun e => ekey e)) in Hx. rewrite K2 in Hx. apply in_map_iff in Hx. destruct Hx as (y & Hy & Hy'). rewrite <- Hy. auto.
      * intros x Hx. apply C5. eapply rep_old; [exact X2' | exact Hx].
      * destruct C4 as [C4 _]. lia.
Qed.

(** ** The finite map itself behaves as one expects *)
Lemma spec_laws : forall (l : list (K * V)) k k' v, P k -> P k' -> Forall (fun e => P (fst e)) l ->
  (ord k' k = Eq -> s_get ord (s_set ord l k v) k' = Some v) /\
  (ord k' k <> Eq -> s_get ord (s_set ord l k v) k' = s_get ord l k') /\
  (ord k' k = Eq -> s_get ord (s_del ord l k) k' = None) /\
  (ord k' k <> Eq -> s_get ord (s_del ord l k) k' = s_get ord l k') /\
  (StronglySorted (fun x y => ord x y = Lt) (map fst l) -> length (s_set ord l k v) = (match s_get ord l k with Some _ => length l | None => S (length l) end)) /\
  (StronglySorted (fun x y => ord x y = Lt) (map fst l) -> length l = (match s_get ord l k with Some _ => S (length (s_del ord l k)) | None => length (s_del ord l k) end)).
Proof.
  intros l k k' v Pk Pk' HP.
  assert (SYM : forall x y, P x -> P y -> ord y x = CompOpp (ord x y)) by apply TO.
  assert (EQ : forall x y z, P x -> P y -> P z -> ord x y = Eq -> ord x z = ord y z) by apply TO.
  assert (TR : forall x y z, P x -> P y -> P z -> ord x y = Lt -> ord y z = Lt -> ord x z = Lt) by apply TO.
  assert (NONE : forall l : list (K * V), Forall (fun e => ord k (fst e) = Lt) l -> s_get ord l k = None /\ s_del ord l k = l).
  { clear. induction l as [|[q w] l IH]; intro F; [split; reflexivity|]. inversion F as [|? ? F1 F2]; subst. cbn in F1.
    destruct (IH F2) as [I1 I2]. split; cbn; rewrite F1; [exact I1|]. unfold s_del in *. cbn. rewrite I2. reflexivity. }
  induction l as [|[q w] l IH]; cbn.
  - repeat split; intro H; auto; [now rewrite H | destruct (ord k' k); congruence].
  - inversion HP as [|? ? Pq Pl]; subst. cbn in Pq. destruct (IH Pl) as (I1 & I2 & I3 & I4 & I5 & I6). clear IH.
    assert (E1 : ord k' k = Eq -> ord k' q = ord k q) by (intro H; apply EQ; auto).
    assert (E2 : ord k' k <> Eq -> ord k q = Eq -> ord k' q <> Eq).
    { intros H1 H2 H3. apply H1. rewrite (SYM k k'), (EQ k q k'), (SYM k' q), H3; auto. }
    repeat split.
    + intro H. destruct (ord k q) eqn:Eo; cbn; rewrite ?(E1 H), ?Eo, ?H; auto.
    + intro H. destruct (ord k q) eqn:Eo; cbn; auto.
      * specialize (E2 H eq_refl). destruct (ord k' q); congruence.
      * destruct (ord k' k); congruence.
      * destruct (ord k' q); auto.
    + intro H. unfold s_del in *. cbn. destruct (ord k q) eqn:Eo; cbn; rewrite ?(E1 H), ?Eo; auto.
    + intro H. unfold s_del in *. cbn. destruct (ord k q) eqn:Eo; cbn; auto.
      * specialize (E2 H eq_refl). rewrite I4 by exact H. destruct (ord k' q); congruence.
      * destruct (ord k' q); auto.
      * destruct (ord k' q); auto.
    + intro SS. inversion SS as [|? ? SS1 SS2]; subst. specialize (I5 SS1).
      destruct (ord k q) eqn:Eo; cbn; auto; [|rewrite I5; destruct (s_get ord l k); reflexivity].
      destruct (NONE l) as [-> _]; [|reflexivity]. rewrite Forall_forall in *. intros e He.
      apply (TR k q (fst e)); auto. apply SS2. now apply in_map.
    + intro SS. inversion SS as [|? ? SS1 SS2]; subst. specialize (I6 SS1).
      unfold s_del in *. cbn. destruct (ord k q) eqn:Eo; cbn.
      * assert (Fl : Forall (fun e => ord k (fst e) = Lt) l).
        { rewrite Forall_forall in *. intros e He. rewrite (EQ k q (fst e)); auto. apply SS2. now apply in_map. }
        destruct (NONE l Fl) as [_ ->]. reflexivity.
      * rewrite I6. destruct (s_get ord l k); reflexivity.
      * rewrite I6. destruct (s_get ord l k); reflexivity.
Qed.
End Extra.

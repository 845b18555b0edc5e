(** Proofs about for-in loops over maps, and about bodies that assign to the index. *)
From Coq Require Import ZArith Lia Bool List Permutation Sorted.
From Verif Require Import Base LoopModel LoopSpec LoopProofs.
Import ListNotations.
Local Open Scope Z_scope.

Lemma entry_in l k v : entry l k = Some v -> In (k, v) l.
Proof.
  induction l as [|[j w] l IH]; [discriminate|]. cbn [entry]. destruct (j =? k) eqn:E; [|intros H; right; now apply IH].
  apply Z.eqb_eq in E. subst j. intros H. injection H as <-. now left.
Qed.
Lemma entry_none l k : entry l k = None -> ~ In k (map fst l).
Proof.
  induction l as [|[j w] l IH]; [intros _ []|]. cbn [entry map fst In]. destruct (j =? k) eqn:E; [discriminate|].
  apply Z.eqb_neq in E. intros H [G|G]; [congruence|]. now apply IH.
Qed.
Lemma addEntry_perm l k v : Permutation (addEntry l k v) ((k, v) :: l).
Proof.
  induction l as [|[j w] l IH]; [apply Permutation_refl|]. cbn [addEntry]. destruct (k <? j); [apply Permutation_refl|].
  eapply Permutation_trans; [apply perm_skip; exact IH|]. apply perm_swap.
Qed.
Lemma addEntry_sorted l k v : StronglySorted Z.lt (map fst l) -> ~ In k (map fst l) -> StronglySorted Z.lt (map fst (addEntry l k v)).
Proof.
  induction l as [|[j w] l IH]; intros S N; cbn [addEntry map fst] in *; [repeat constructor|].
  apply StronglySorted_inv in S. destruct S as [S F].
  destruct (k <? j) eqn:E; cbn [map fst].
  - apply Z.ltb_lt in E. constructor; [now constructor|]. constructor; [exact E|]. eapply Forall_impl; [|exact F]. intros a; cbv beta; lia.
  - apply Z.ltb_ge in E. assert (j < k) by (cbn [In] in N; lia).
    constructor; [apply IH; [exact S|cbn [In] in N; tauto]|].
    apply (Permutation_Forall (Permutation_map fst (Permutation_sym (addEntry_perm l k v)))).
    cbn [map fst]. now constructor.
Qed.
Lemma addEntry_entry l k v : entry l k = None -> entry (addEntry l k v) k = Some v.
Proof.
  induction l as [|[j w] l IH]; cbn [entry addEntry]; [now rewrite Z.eqb_refl|].
  destruct (j =? k) eqn:E; [discriminate|]. intros H. destruct (k <? j); cbn [entry]; [now rewrite Z.eqb_refl|]. rewrite E. now apply IH.
Qed.

Definition mapKeys (u : mem) (o : option nat) : list Z := match o with Some m => map fst (mmap u m) | None => [] end.
Definition mready (d : loop) (o : option nat) (kb n : nat) (l : vars) : Prop :=
  l VLen = VInt (Z.of_nat n) /\ l VColl = VMap o /\ l VKeys = VDyn (Some kb).

Lemma mheader_ok d u p o (l : vars) : lcoll d = KMap -> holds u p (VMap o) ->
  exists (l' : vars) u', exec (header d) ([VRef p], l, u) = Ok ([], l', u') /\ mready d o (mnext u) (length (mapKeys u o)) l' /\ l' VIdx = VInt 0
    /\ withKeys u u' /\ mblk u' (mnext u) = map VInt (mapKeys u o).
Proof.
  intros C H. destruct d as [c df it pt k z]. cbn [lcoll] in C. subst c. unfold header. cbn [lcoll isMap isArr litem lderef]. rewrite orb_true_r.
  assert (N : mapLen u o = Z.of_nat (length (mapKeys u o))) by (destruct o; cbn; [now rewrite map_length|reflexivity]).
  assert (B : (fun c => if Nat.eqb c (mnext u) then match o with Some m => map (fun e => VInt (fst e)) (mmap u m) | None => [] end else mblk u c) (mnext u)
              = map VInt (mapKeys u o)).
  { cbv beta. rewrite Nat.eqb_refl. destruct o; cbn; [now rewrite map_map|reflexivity]. }
  destruct df, it; run; unfold doLen; cbn [loadPtr bind]; rewrite ?(holds_load u p _ _ H); cbn [bind]; run; rewrite ?(holds_load u p _ _ H);
    cbn [bind]; run; rewrite ?(holds_load u p _ _ H); cbn [bind]; run;
    (eexists; eexists; split; [reflexivity|]; split; [repeat split; cbn; now rewrite ?N|]; split; [reflexivity|]; split; [|exact B];
     repeat split; cbn; intros c Hc; apply Nat.eqb_neq in Hc; now rewrite Hc).
Qed.

Lemma mfetch_ok d m kb n (l : vars) u ks i k : lcoll d = KMap -> mready d (Some m) kb n l -> mblk u kb = map VInt ks -> l VIdx = VInt (Z.of_nat i) ->
  nth_error ks i = Some k ->
  exists (l' : vars) u1 x, exec (fetch d) ([], l, u) = Ok ([], l', u1) /\ seen d m k u u1 x /\ (litem d = true -> l' VItem = x) /\ (litem d = false -> x = VNull)
    /\ l' VKey = VInt k /\ l' VIdx = l VIdx /\ mready d (Some m) kb n l' /\ mblk u1 = mblk u.
Proof.
  intros C (R1 & R2 & R3) B Ix E. destruct d as [c df it pt kd z]. cbn [lcoll] in C. subst c. unfold fetch, seen. cbn [lcoll isMap isArr litem lptr lzero].
  assert (EV : nth_error (mblk u kb) i = Some (VInt k)) by (rewrite B; now apply map_nth_error).
  assert (F : (Z.of_nat i <? 0) || (blkLen u (Some kb) - 1 <? Z.of_nat i) = false).
  { apply orb_false_iff. split; apply Z.ltb_ge; [lia|]. unfold blkLen. assert (nth_error (mblk u kb) i <> None) by congruence. apply nth_error_Some in H. lia. }
  rewrite exec_app.
  assert (G : exec [IPushVar VKeys; IPushVar VIdx; IDeref KInt; IGetDyn; IDeref KInt; IPushVar VKey; IAssign KInt] ([], l, u) = Ok ([], setVar l VKey (VInt k), u)).
  { run. rewrite Ix. run. rewrite R3. run. rewrite F. run. rewrite (itemAt_nat _ _ _ EV). run. reflexivity. }
  rewrite G. cbn [bind]. clear G F.
  destruct it.
  - destruct (entry (mmap u m) k) as [v|] eqn:En.
    + exists (setVar (setVar l VKey (VInt k)) VItem (if pt then VRef (PEntry m k) else v)), u, (if pt then VRef (PEntry m k) else v). split.
      * run. rewrite R2. run. rewrite ?En. destruct pt; run; [reflexivity|].
        destruct (structured kd) eqn:Sk; run; rewrite ?Sk; run; rewrite En; run; rewrite ?Sk; run; reflexivity.
      * split; [exists v; split; [reflexivity|left; split; [now apply entry_in|reflexivity]]|].
        split; [reflexivity|]. split; [discriminate|]. repeat split; assumption.
    + set (u1 := setMap u m (addEntry (mmap u m) k z)).
      assert (L : entry (mmap u1 m) k = Some z) by (cbn; rewrite Nat.eqb_refl; now apply addEntry_entry).
      exists (setVar (setVar l VKey (VInt k)) VItem (if pt then VRef (PEntry m k) else z)), u1, (if pt then VRef (PEntry m k) else z). split.
      * run. rewrite R2. run. rewrite ?En. fold u1. destruct pt; run; [reflexivity|].
        destruct (structured kd) eqn:Sk; run; rewrite ?Sk; run; rewrite L; run; rewrite ?Sk; run; reflexivity.
      * split.
        -- exists z. split; [reflexivity|]. right. split; [now apply entry_none|]. split; [reflexivity|].
           unfold added. cbn. repeat split.
           ++ intros c Hc. apply Nat.eqb_neq in Hc. now rewrite Hc.
           ++ rewrite Nat.eqb_refl. apply addEntry_perm.
           ++ rewrite Nat.eqb_refl. intros S. apply addEntry_sorted; [exact S|now apply entry_none].
        -- split; [reflexivity|]. split; [discriminate|]. repeat split; assumption.
  - exists (setVar l VKey (VInt k)), u, VNull. split; [reflexivity|]. split; [split; reflexivity|]. split; [discriminate|]. split; [reflexivity|]. repeat split; assumption.
Qed.

Lemma nth_skipn {A} (ks : list A) i k r : skipn i ks = k :: r -> nth_error ks i = Some k /\ skipn (i + 1) ks = r.
Proof.
  revert ks. induction i as [|i IH]; intros ks E.
  - cbn in E. subst ks. split; reflexivity.
  - destruct ks as [|w ks]; [discriminate|]. cbn [skipn nth_error Nat.add] in *. now apply IH.
Qed.

Lemma miter_ok d mb s m kb ks : lcoll d = KMap -> doesKey mb s -> (forall k x u u' f, s k x u = Ok (u', f) -> mblk u' kb = mblk u kb) ->
  Z.of_nat (length ks) <= INT_MAX ->
  forall r i fuel (l : vars) u, skipn i ks = r -> (i + length r = length ks)%nat -> (length r < fuel)%nat -> mready d (Some m) kb (length ks) l ->
  mblk u kb = map VInt ks -> l VIdx = VInt (Z.of_nat i) -> mapRun d m s r u (iter d mb fuel l u).
Proof.
  intros C Do Ke Hn. induction r as [|k r IH]; intros i fuel l u Sk Le Fu R B Ix; (destruct fuel as [|fuel]; [cbn in Fu; lia|]); cbn [iter];
    rewrite (cond_ok _ _ _ _ Ix (proj1 R)); cbn [bind].
  - destruct (Z.of_nat i <? Z.of_nat (length ks)) eqn:E; [apply Z.ltb_lt in E; cbn in Le; lia|]. apply M_nil.
  - cbn [length] in Le, Fu. destruct (Z.of_nat i <? Z.of_nat (length ks)) eqn:E; [|apply Z.ltb_ge in E; lia]. cbn match.
    apply nth_skipn in Sk. destruct Sk as [Nk Sk].
    destruct (mfetch_ok d m kb _ l u ks i k C R B Ix Nk) as (l' & u1 & x & F1 & F2 & F3 & F4 & F5 & F6 & F7 & F8).
    rewrite F1. cbn [bind]. unfold nameVar. rewrite C. cbn [isMap]. rewrite F5.
    assert (X : (if litem d then l' VItem else VNull) = x) by (destruct (litem d); [now apply F3|now rewrite F4]).
    rewrite X. specialize (Do k x u1).
    apply M_cons with (u1 := u1) (x := x); [exact F2| | | | |].
    + intros u2 f Sx Fl. rewrite Sx in Do. destruct Do as (k' & x' & ->). cbn [bind].
      assert (I : setVar (setVar l' VKey k') VItem x' VIdx = VInt (Z.of_nat i)) by (exact (eq_trans F6 Ix)).
      assert (B' : mblk u2 kb = map VInt ks) by (rewrite (Ke _ _ _ _ _ Sx), F8; exact B).
      destruct R as (R1 & R2 & R3), F7 as (G1 & G2 & G3).
      destruct Fl as [-> | ->]; cbn match; rewrite (next_ok _ _ _ I) by lia; cbn [bind];
        (apply IH with (i := (i + 1)%nat); [exact Sk|lia|lia|repeat split; assumption|exact B'|cbn; f_equal; lia]).
    + intros u2 Sx. rewrite Sx in Do. destruct Do as (k' & x' & ->). reflexivity.
    + intros u2 Sx. rewrite Sx in Do. destruct Do as (k' & x' & ->). reflexivity.
    + intros e Sx. rewrite Sx in Do. rewrite Do. reflexivity.
    + intros Sx. rewrite Sx in Do. rewrite Do. reflexivity.
Qed.

Theorem forIn_map d mb s u p o m l fuel : lcoll d = KMap -> holds u p (VMap o) -> o = Some m \/ o = None -> doesKey mb s ->
  (forall k x v v' f, s k x v = Ok (v', f) -> mblk v' (mnext u) = mblk v (mnext u)) ->
  Z.of_nat (length (mapKeys u o)) <= INT_MAX -> (length (mapKeys u o) < fuel)%nat ->
  exists u0, withKeys u u0 /\ mapRun d m s (mapKeys u o) u0 (forIn d mb fuel l (VRef p) u).
Proof.
  intros C H O Do Ke Hn Fu. destruct (mheader_ok d u p o l C H) as (l' & u' & E & R & Ix & W & B).
  exists u'. split; [exact W|]. unfold forIn, check. rewrite C. cbn [bind]. rewrite E. cbn [bind].
  destruct O as [-> | ->].
  - eapply miter_ok with (i := O); eauto.
  - cbn [mapKeys] in *. destruct fuel as [|fuel]; [cbn in Fu; lia|]. cbn [iter]. rewrite (cond_ok _ _ _ _ Ix (proj1 R)). cbn [bind length]. apply M_nil.
Qed.

(** Safety for a body that also assigns to the index. *)
Definition tame (d : loop) (b : nat) (mb : body) : Prop := forall i x u,
  mb (VInt i) x u <> UB
  /\ forall i' x' u' f, mb (VInt i) x u = Ok (i', x', u', f) ->
       (exists z, i' = VInt z /\ z < INT_MAX) /\ (lcoll d = KDyn \/ (length (mblk u b) <= length (mblk u' b))%nat).

Lemma fetch_neg d b n (l : vars) u i : check d = Ok tt -> isMap (lcoll d) = false -> (litem d = true -> collOk d b n (l VColl)) ->
  l VIdx = VInt i -> i < 0 -> n <> O ->
  (litem d = true -> exec (fetch d) ([], l, u) = Err EIndex) /\ (litem d = false -> exec (fetch d) ([], l, u) = Ok ([], l, u)).
Proof.
  intros C M Co Ix Lt Nz. destruct d as [c df it pt kd z]. unfold fetch. cbn [lcoll litem lptr lkind lzero] in *. rewrite M.
  split; intros ->; [|reflexivity]. specialize (Co eq_refl). unfold collOk in Co. cbn [lcoll] in Co.
  assert (K0 : i <? 0 = true) by (now apply Z.ltb_lt).
  destruct c; try discriminate M; try contradiction Co.
  - destruct Co as [Co|[_ Co]]; [|contradiction]. run. rewrite Co. run. rewrite Ix. run. rewrite K0. reflexivity.
  - run. rewrite Co. run. rewrite Ix. run. rewrite K0. reflexivity.
  - destruct Co as [Co|[_ Co]]; [|contradiction]. run. rewrite Ix. run. rewrite Co. run. rewrite K0. reflexivity.
Qed.

Lemma iter_safe d mb b n : check d = Ok tt -> isMap (lcoll d) = false -> smallStr d n -> tame d b mb ->
  forall fuel (l : vars) u i, (n = O -> 0 <= i) -> ready d b n l -> l VIdx = VInt i -> lenOk d b n u -> iter d mb fuel l u <> UB.
Proof.
  intros C M Sm T. induction fuel as [|fuel IH]; intros l u i Nz [R1 R2] Ix Le; [discriminate|]. cbn [iter].
  rewrite (cond_ok _ _ _ _ Ix R1); cbn [bind]. destruct (i <? Z.of_nat n) eqn:E; [|discriminate]. cbn match. apply Z.ltb_lt in E.
  assert (Nn : n <> O) by (intros ->; specialize (Nz eq_refl); cbn in E; lia).
  assert (F : exec (fetch d) ([], l, u) = Err EIndex \/ exists l' : vars, exec (fetch d) ([], l, u) = Ok ([], l', u)
              /\ l' VIdx = l VIdx /\ l' VLen = l VLen /\ l' VColl = l VColl).
  { destruct (Z.ltb_spec i 0) as [N|N].
    - destruct (fetch_neg d b n l u i C M R2 Ix N Nn) as [F1 F2].
      destruct (litem d); [left; now apply F1|right; exists l; rewrite F2 by reflexivity; repeat split].
    - pose proof (fetch_ok d b n l u (Z.to_nat i) C M R2 Le Sm) as F. rewrite Z2Nat.id in F by exact N.
      specialize (F Ix ltac:(lia)). destruct (shown d b (Z.to_nat i) u); [|now left]. right. destruct F as (l' & F1 & _ & _ & F2 & F3 & F4). eauto. }
  destruct F as [F|(l' & F & G1 & G2 & G3)]; rewrite F; cbn [bind]; [discriminate|].
  unfold nameVar. rewrite M, G1, Ix. set (x := if litem d then l' VItem else VNull). destruct (T i x u) as [T1 T2].
  destruct (mb (VInt i) x u) as [[[[i' x'] u'] f]| e |] eqn:Mb; cbn [bind]; [|discriminate|contradiction].
  destruct (T2 _ _ _ _ eq_refl) as [(z & -> & Z1) L].
  assert (I : setVar (setVar l' VIdx (VInt z)) VItem x' VIdx = VInt z) by reflexivity.
  assert (Le' : lenOk d b n u') by (destruct Le as [Le|Le]; [now left|]; destruct L as [L|L]; [now left|right; lia]).
  destruct f; try discriminate; rewrite (next_ok _ _ _ I) by exact Z1; cbn [bind];
    (apply IH with (i := z + 1); [intros; contradiction| |reflexivity|exact Le']; split; [exact (eq_trans G2 R1)|]; intros Q; cbn; rewrite G3; now apply R2).
Qed.
Theorem forIn_safe d mb u b n e l fuel : denotes d u b n e -> check d = Ok tt -> tame d b mb -> forIn d mb fuel l e u <> UB.
Proof.
  intros D C T. destruct (denotes_facts _ _ _ _ _ D) as (M & Sm & Le).
  unfold forIn. rewrite C. cbn [bind]. destruct (header_ok d u b n e l D C) as (l' & -> & R & I). cbn [bind].
  apply iter_safe with (b := b) (n := n) (i := 0); auto. lia.
Qed.

(** A body that leaves the map alone gets its entries. *)
Lemma in_unique (l : list (Z * value)) k v w : NoDup (map fst l) -> In (k, v) l -> In (k, w) l -> v = w.
Proof.
  induction l as [|[j y] l IH]; intros N A B; [contradiction|]. cbn [map fst] in N. apply NoDup_cons_iff in N. destruct N as [N1 N2].
  destruct A as [A|A], B as [B|B].
  - congruence.
  - injection A as -> ->. exfalso. apply N1. now apply (in_map fst _ (k, w)).
  - injection B as -> ->. exfalso. apply N1. now apply (in_map fst _ (k, v)).
  - now apply IH.
Qed.
Lemma mapRun_unchanged d m s es : litem d = true -> lptr d = false -> NoDup (map fst es) ->
  (forall i x u u' f, s i x u = Ok (u', f) -> mmap u' m = mmap u m) ->
  forall l u r, incl l es -> mmap u m = es -> mapRun d m s (map fst l) u r -> r = forEach s l u.
Proof.
  intros It Pt N Ke. induction l as [|[k v] l IH]; intros u r Inc U H; cbn [map fst] in H; inversion H as [|? ? ? u1 x ? Se A1 A2 A3 A4 A5]; subst; [reflexivity|].
  cbn [forEach]. unfold seen in Se. rewrite It, Pt in Se. destruct Se as (w & -> & Se).
  assert (Iv : In (k, v) (mmap u m)) by (apply Inc; now left).
  destruct Se as [[I ->]|(I & _)]; [|exfalso; apply I; now apply (in_map fst _ (k, v))].
  rewrite (in_unique _ _ _ _ N Iv I) in *.
  destruct (s k w u) as [[u2 f]| e |] eqn:Sx; cbn [after].
  - destruct f.
    + apply IH; [intros a Ha; apply Inc; now right|now rewrite (Ke _ _ _ _ _ Sx)|]. apply (A1 u2 FNext eq_refl). now left.
    + apply IH; [intros a Ha; apply Inc; now right|now rewrite (Ke _ _ _ _ _ Sx)|]. apply (A1 u2 FContinue eq_refl). now right.
    + now apply A2.
    + now apply A3.
  - now apply A4.
  - now apply A5.
Qed.
(** The other statements of C59. *)
Theorem forIn_items d mb s u b e l fuel : denotes d u b (length (mblk u b)) e -> check d = Ok tt -> litem d = true -> lptr d = false -> does mb s ->
  (forall i x v v' f, s i x v = Ok (v', f) -> mblk v' b = mblk v b) -> Z.of_nat (length (mblk u b)) <= INT_MAX -> (length (mblk u b) < fuel)%nat ->
  forIn d mb fuel l e u = forEach s (numbered 0 (mblk u b)) u.
Proof.
  intros D C It Pt Do Ke Hn Fu. rewrite (forIn_ok d mb s u b _ e l fuel D C Do); [|right; intros i x v v' f Sx; now rewrite (Ke _ _ _ _ _ Sx)|exact Hn|exact Fu].
  now apply visits_unchanged with (items := mblk u b).
Qed.
Theorem forIn_grow d mb s u b n e l fuel : denotes d u b n e -> check d = Ok tt -> does mb s ->
  (forall i x v v' f, s i x v = Ok (v', f) -> (length (mblk v b) <= length (mblk v' b))%nat) -> Z.of_nat n <= INT_MAX -> (n < fuel)%nat ->
  forIn d mb fuel l e u = Err EIndex -> exists k x v, (k < n)%nat /\ s (Z.of_nat k) x v = Err EIndex.
Proof.
  intros D C Do Ke Hn Fu. rewrite (forIn_ok d mb s u b _ e l fuel D C Do); [|now right|exact Hn|exact Fu]. intros V.
  destruct (Nat.eq_dec n 0) as [-> |Nz]; [discriminate|].
  assert (Le : (n <= length (mblk u b))%nat).
  { destruct D as [E L|p o E H L|o E F B L|p o E F B H L]; try (destruct L as [[_ L]|[_ L]]); lia. }
  destruct (visits_grow d b s n Ke n 0%nat u eq_refl Le V) as (k & x & v & B1 & B2). exists k, x, v. split; [lia|exact B2].
Qed.
Theorem forIn_entries d mb s u p m l fuel : lcoll d = KMap -> litem d = true -> lptr d = false -> holds u p (VMap (Some m)) -> NoDup (map fst (mmap u m)) -> doesKey mb s ->
  (forall k x v v' f, s k x v = Ok (v', f) -> mblk v' (mnext u) = mblk v (mnext u) /\ mmap v' m = mmap v m) ->
  Z.of_nat (length (mmap u m)) <= INT_MAX -> (length (mmap u m) < fuel)%nat ->
  exists u0, withKeys u u0 /\ forIn d mb fuel l (VRef p) u = forEach s (mmap u m) u0.
Proof.
  intros C It Pt H N Do Ke Hn Fu.
  destruct (forIn_map d mb s u p (Some m) m l fuel C H (or_introl eq_refl) Do) as (u0 & W & R).
  - intros k x v v' f Sx. now apply (Ke _ _ _ _ _ Sx).
  - cbn [mapKeys]. now rewrite map_length.
  - cbn [mapKeys]. now rewrite map_length.
  - exists u0. split; [exact W|]. cbn [mapKeys] in R.
    apply (mapRun_unchanged d m s (mmap u m) It Pt N) in R; [exact R| |intros a Ha; exact Ha|].
    + intros i x v v' f Sx. now apply (Ke _ _ _ _ _ Sx).
    + destruct W as (_ & W & _). now rewrite W.
Qed.

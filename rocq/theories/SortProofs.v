From Coq Require Import ZArith Lia Bool List Permutation FinFun.
From Coq Require Import ZifyBool.
From Verif Require Import Base SortModel.
Import ListNotations.
Local Open Scope Z_scope.

Section Lists.
Context {A : Type}.
Implicit Types l : list A.

Lemma set_nth_length n x l : length (set_nth n x l) = length l.
Proof. revert n. induction l as [|y r IH]; intros [|n]; cbn; auto. Qed.

Lemma set_nth_get n x l k : nth_error (set_nth n x l) k = if Nat.eqb k n then (if Nat.ltb n (length l) then Some x else None) else nth_error l k.
Proof.
  revert n k. induction l as [|y r IH]; intros n k.
  - destruct n; cbn; destruct k; cbn; try reflexivity; destruct (Nat.eqb k n); reflexivity.
  - destruct n as [|n], k as [|k]; cbn [set_nth nth_error Nat.eqb]; try reflexivity.
    rewrite IH. destruct (Nat.eqb k n); [|reflexivity]. cbn [length]. destruct (Nat.ltb_spec n (length r)), (Nat.ltb_spec (S n) (S (length r))); auto; lia.
Qed.

Lemma at_some l k : 0 <= k < Z.of_nat (length l) -> exists x, at_ l k = Some x.
Proof.
  intro H. unfold at_. replace (k <? 0) with false by lia.
  destruct (nth_error l (Z.to_nat k)) eqn:E; eauto. apply nth_error_None in E. lia.
Qed.
Lemma at_range l k x : at_ l k = Some x -> 0 <= k < Z.of_nat (length l).
Proof.
  unfold at_. destruct (k <? 0) eqn:E; [discriminate|]. intro H.
  assert (nth_error l (Z.to_nat k) <> None) as N by congruence. apply nth_error_Some in N. lia.
Qed.

Definition swapped (l : list A) (i j : Z) (x y : A) : list A := set_nth (Z.to_nat j) x (set_nth (Z.to_nat i) y l).

Lemma swapped_length l i j x y : length (swapped l i j x y) = length l.
Proof. unfold swapped. rewrite !set_nth_length. reflexivity. Qed.

Lemma swapped_at l i j x y k :
  at_ l i = Some x -> at_ l j = Some y ->
  at_ (swapped l i j x y) k = if k =? j then Some x else if k =? i then Some y else at_ l k.
Proof.
  intros Hi Hj. pose proof (at_range _ _ _ Hi) as Ri. pose proof (at_range _ _ _ Hj) as Rj.
  unfold at_, swapped. destruct (k <? 0) eqn:K.
  - replace (k =? j) with false by lia. replace (k =? i) with false by lia. reflexivity.
  - rewrite set_nth_get, set_nth_get, set_nth_length.
    destruct (Nat.eqb_spec (Z.to_nat k) (Z.to_nat j)); destruct (Nat.eqb_spec (Z.to_nat k) (Z.to_nat i));
    destruct (k =? j) eqn:E1; destruct (k =? i) eqn:E2; try lia; auto;
    repeat match goal with |- context [Nat.ltb ?a ?b] => destruct (Nat.ltb_spec a b); try lia end; auto.
Qed.

Lemma swapped_perm l i j x y : at_ l i = Some x -> at_ l j = Some y -> Permutation l (swapped l i j x y).
Proof.
  intros Hi Hj. pose proof (at_range _ _ _ Hi) as Ri. pose proof (at_range _ _ _ Hj) as Rj.
  apply Permutation_nth_error. split; [symmetry; apply swapped_length|].
  exists (fun n => if Nat.eqb n (Z.to_nat j) then Z.to_nat i else if Nat.eqb n (Z.to_nat i) then Z.to_nat j else n).
  split.
  - intros a b. repeat match goal with |- context [Nat.eqb ?a ?b] => destruct (Nat.eqb_spec a b) end; lia.
  - intro n. pose proof (swapped_at l i j x y (Z.of_nat n) Hi Hj) as H. unfold at_ in H, Hi, Hj.
    replace (Z.of_nat n <? 0) with false in H by lia. rewrite Nat2Z.id in H. rewrite H.
    replace (i <? 0) with false in Hi by lia. replace (j <? 0) with false in Hj by lia.
    destruct (Nat.eqb_spec n (Z.to_nat j)); destruct (Nat.eqb_spec n (Z.to_nat i));
    destruct (Z.of_nat n =? j) eqn:E1; destruct (Z.of_nat n =? i) eqn:E2; try lia; auto.
Qed.

(** Rearrangement of the items first..last only. *)
Definition seg (f la : Z) (l l' : list A) : Prop :=
  Permutation l l' /\
  (forall k, k < f \/ la < k -> at_ l' k = at_ l k) /\
  (forall k, f <= k <= la -> exists k', f <= k' <= la /\ at_ l' k = at_ l k').

Lemma seg_refl f la l : seg f la l l.
Proof. split; [apply Permutation_refl|]. split; auto. intros k H. exists k. auto. Qed.
Lemma seg_trans f la l1 l2 l3 : seg f la l1 l2 -> seg f la l2 l3 -> seg f la l1 l3.
Proof.
  intros (P1 & O1 & I1) (P2 & O2 & I2). split; [eapply Permutation_trans; eassumption|]. split.
  - intros k H. rewrite O2, O1; auto.
  - intros k H. destruct (I2 k H) as (k' & H' & E). destruct (I1 k' H') as (k2 & H2 & E2). exists k2. split; auto. congruence.
Qed.
Lemma seg_widen f la f' la' l l' : f' <= f -> la <= la' -> seg f la l l' -> seg f' la' l l'.
Proof.
  intros H1 H2 (P & O & I). split; auto. split.
  - intros k H. apply O. lia.
  - intros k H. destruct (Z.le_gt_cases f k) as [B|B]; [destruct (Z.le_gt_cases k la) as [C|C]|].
    + destruct (I k ltac:(lia)) as (k' & H' & E). exists k'. split; [lia|auto].
    + exists k. split; [lia|]. apply O. lia.
    + exists k. split; [lia|]. apply O. lia.
Qed.
Lemma seg_length f la l l' : seg f la l l' -> length l' = length l.
Proof. intros (P & _). symmetry. apply Permutation_length. exact P. Qed.
Lemma seg_swap f la l i j x y :
  f <= i <= la -> f <= j <= la -> at_ l i = Some x -> at_ l j = Some y -> seg f la l (swapped l i j x y).
Proof.
  intros Hi Hj Ai Aj. split; [apply swapped_perm; assumption|]. split.
  - intros k H. rewrite (swapped_at l i j x y k Ai Aj). replace (k =? j) with false by lia. replace (k =? i) with false by lia. reflexivity.
  - intros k H. rewrite (swapped_at l i j x y k Ai Aj). destruct (k =? j); [exists i; auto|]. destruct (k =? i); [exists j; auto|].
    exists k. auto.
Qed.
End Lists.

Section Any.
Variables A S : Type.
Variable cmp : S -> A -> A -> S * outcome Z.
Notation M := (M A S).

Definition okub {X} (r : outcome X) : Prop := (forall s x y, snd (cmp s x y) <> UB) -> r <> UB.

Lemma compare_any i j l s :
  0 <= i < Z.of_nat (length l) -> 0 <= j < Z.of_nat (length l) ->
  exists s' r, compare A S cmp i j (l, s) = ((l, s'), r) /\ okub r.
Proof.
  intros Hi Hj. destruct (at_some l i Hi) as [x Ex]. destruct (at_some l j Hj) as [y Ey].
  unfold compare. rewrite Ex, Ey. destruct (cmp s x y) as [s' r] eqn:E. exists s', r. split; auto.
  intros H. specialize (H s x y). rewrite E in H. exact H.
Qed.

Lemma scanUp_any fuel : forall l s i pv la,
  0 <= pv < Z.of_nat (length l) -> 0 <= i -> i <= la < Z.of_nat (length l) ->
  exists s' r, scanUp A S cmp fuel i pv la (l, s) = ((l, s'), r) /\ okub r /\
    forall i', r = Ok i' -> i <= i' <= la.
Proof.
  induction fuel as [|fuel IH]; intros l s i pv la Hp Hi Hl.
  - exists s, (Err EFuel). split; [reflexivity|]. split; [intro; discriminate|]. intros i' [=].
  - cbn [scanUp]. unfold mbind.
    destruct (compare_any i pv l s ltac:(lia) Hp) as (s1 & r1 & -> & U1).
    destruct r1 as [c|e|].
    + destruct ((c <=? 0) && (i <? la)) eqn:E.
      * destruct (IH l s1 (i + 1) pv la Hp ltac:(lia) ltac:(lia)) as (s2 & r2 & -> & U2 & R2).
        exists s2, r2. split; [reflexivity|]. split; [exact U2|]. intros i' H. specialize (R2 _ H). lia.
      * exists s1, (Ok i). split; [reflexivity|]. split; [intro; discriminate|]. intros i' [= <-]. lia.
    + exists s1, (Err e). split; [reflexivity|]. split; [intro; discriminate|]. intros i' [=].
    + exists s1, UB. split; [reflexivity|]. split; [intro H; exfalso; apply (U1 H); reflexivity|]. intros i' [=].
Qed.

Lemma scanDown_any fuel : forall l s j pv f,
  0 <= pv < Z.of_nat (length l) -> 0 <= f <= j -> j < Z.of_nat (length l) ->
  exists s' r, scanDown A S cmp fuel j pv f (l, s) = ((l, s'), r) /\ okub r /\
    forall j', r = Ok j' -> f <= j' <= j.
Proof.
  induction fuel as [|fuel IH]; intros l s j pv f Hp Hi Hl.
  - exists s, (Err EFuel). split; [reflexivity|]. split; [intro; discriminate|]. intros i' [=].
  - cbn [scanDown]. unfold mbind.
    destruct (compare_any j pv l s ltac:(lia) Hp) as (s1 & r1 & -> & U1).
    destruct r1 as [c|e|].
    + destruct ((0 <? c) && (f <? j)) eqn:E.
      * destruct (IH l s1 (j - 1) pv f Hp ltac:(lia) ltac:(lia)) as (s2 & r2 & -> & U2 & R2).
        exists s2, r2. split; [reflexivity|]. split; [exact U2|]. intros i' H. specialize (R2 _ H). lia.
      * exists s1, (Ok j). split; [reflexivity|]. split; [intro; discriminate|]. intros i' [= <-]. lia.
    + exists s1, (Err e). split; [reflexivity|]. split; [intro; discriminate|]. intros i' [=].
    + exists s1, UB. split; [reflexivity|]. split; [intro H; exfalso; apply (U1 H); reflexivity|]. intros i' [=].
Qed.

Lemma swap_any l s i j f la :
  f <= i <= la -> f <= j <= la -> 0 <= f -> la < Z.of_nat (length l) ->
  exists x y, at_ l i = Some x /\ at_ l j = Some y /\ qsortSwap A S i j (l, s) = ((swapped l i j x y, s), Ok tt) /\
    seg f la l (swapped l i j x y).
Proof.
  intros Hi Hj Hf Hl. destruct (at_some l i ltac:(lia)) as [x Ex]. destruct (at_some l j ltac:(lia)) as [y Ey].
  exists x, y. unfold qsortSwap. rewrite Ex, Ey. repeat split; auto; apply (seg_swap f la l i j x y Hi Hj Ex Ey).
Qed.

Lemma partitionLoop_any fuel : forall l s i j f la,
  0 <= f -> la < Z.of_nat (length l) -> f <= i <= la -> f <= j <= la ->
  exists l' s' r, partitionLoop A S cmp fuel i j f la (l, s) = ((l', s'), r) /\ seg f la l l' /\ okub r /\
    forall j', r = Ok j' -> f <= j' <= la.
Proof.
  induction fuel as [|fuel IH]; intros l s i j f la Hf Hl Hi Hj.
  - exists l, s, (Err EFuel). split; [reflexivity|]. split; [apply seg_refl|]. split; [intro; discriminate|]. intros j' [=].
  - cbn [partitionLoop]. destruct (i <? j) eqn:E.
    2: { exists l, s, (Ok j). split; [reflexivity|]. split; [apply seg_refl|]. split; [intro; discriminate|]. intros j' [= <-]. lia. }
    unfold mbind at 1.
    destruct (scanUp_any (Datatypes.S fuel) l s i f la ltac:(lia) ltac:(lia) ltac:(lia)) as (s1 & r1 & -> & U1 & R1).
    destruct r1 as [i1|e|].
    2: { exists l, s1, (Err e). split; [reflexivity|]. split; [apply seg_refl|]. split; [intro; discriminate|]. intros j' [=]. }
    2: { exists l, s1, UB. split; [reflexivity|]. split; [apply seg_refl|]. split; [intro H; exfalso; apply (U1 H); reflexivity|]. intros j' [=]. }
    specialize (R1 _ eq_refl). unfold mbind at 1.
    destruct (scanDown_any (Datatypes.S fuel) l s1 j f f ltac:(lia) ltac:(lia) ltac:(lia)) as (s2 & r2 & -> & U2 & R2).
    destruct r2 as [j1|e|].
    2: { exists l, s2, (Err e). split; [reflexivity|]. split; [apply seg_refl|]. split; [intro; discriminate|]. intros j' [=]. }
    2: { exists l, s2, UB. split; [reflexivity|]. split; [apply seg_refl|]. split; [intro H; exfalso; apply (U2 H); reflexivity|]. intros j' [=]. }
    specialize (R2 _ eq_refl). unfold mbind at 1.
    destruct (i1 <? j1) eqn:E1.
    + destruct (swap_any l s2 i1 j1 f la ltac:(lia) ltac:(lia) Hf Hl) as (x & y & Ax & Ay & -> & Sg).
      destruct (IH (swapped l i1 j1 x y) s2 i1 j1 f la Hf) as (l' & s' & r & -> & Sg' & U & R);
        try lia; [rewrite swapped_length; lia|].
      exists l', s', r. split; [reflexivity|]. split; [eapply seg_trans; eassumption|]. split; assumption.
    + unfold ret. destruct (IH l s2 i1 j1 f la Hf) as (l' & s' & r & -> & Sg' & U & R); try lia.
      exists l', s', r. split; [reflexivity|]. split; [assumption|]. split; assumption.
Qed.

Lemma qsortPartition_any fuel l s f la :
  0 <= f -> la < Z.of_nat (length l) -> f <= la ->
  exists l' s' r, qsortPartition A S cmp fuel f la (l, s) = ((l', s'), r) /\ seg f la l l' /\ okub r /\
    forall j', r = Ok j' -> f <= j' <= la.
Proof.
  intros Hf Hl H. unfold qsortPartition, mbind at 1.
  destruct (partitionLoop_any fuel l s f la f la Hf Hl ltac:(lia) ltac:(lia)) as (l1 & s1 & r1 & -> & Sg & U & R).
  destruct r1 as [j|e|].
  - specialize (R _ eq_refl). unfold mbind.
    destruct (swap_any l1 s1 f j f la) as (x & y & Ax & Ay & -> & Sg2); try lia.
    { rewrite (seg_length _ _ _ _ Sg). lia. }
    exists (swapped l1 f j x y), s1, (Ok j). split; [reflexivity|]. split; [eapply seg_trans; eassumption|].
    split; [intro; discriminate|]. intros j' [= <-]. lia.
  - exists l1, s1, (Err e). split; [reflexivity|]. split; [assumption|]. split; [intro; discriminate|]. intros j' [=].
  - exists l1, s1, UB. split; [reflexivity|]. split; [assumption|].
    split; [intro H1; exfalso; apply (U H1); reflexivity|]. intros j' [=].
Qed.

Lemma qsortEx_any fuel pf : forall l s f la,
  0 <= f -> la < Z.of_nat (length l) ->
  exists l' s' r, qsortEx A S cmp fuel pf f la (l, s) = ((l', s'), r) /\ seg f la l l' /\ okub r.
Proof.
  induction fuel as [|fuel IH]; intros l s f la Hf Hl.
  - exists l, s, (Err EFuel). split; [reflexivity|]. split; [apply seg_refl|]. intro; discriminate.
  - cbn [qsortEx]. destruct (la <=? f) eqn:E.
    { exists l, s, (Ok tt). split; [reflexivity|]. split; [apply seg_refl|]. intro; discriminate. }
    unfold mbind at 1.
    destruct (qsortPartition_any pf l s f la Hf Hl ltac:(lia)) as (l1 & s1 & r1 & -> & Sg & U & R).
    destruct r1 as [p|e|].
    2: { exists l1, s1, (Err e). split; [reflexivity|]. split; [assumption|]. intro; discriminate. }
    2: { exists l1, s1, UB. split; [reflexivity|]. split; [assumption|]. intro H1; exfalso; apply (U H1); reflexivity. }
    specialize (R _ eq_refl). unfold mbind.
    destruct (IH l1 s1 f (p - 1) Hf) as (l2 & s2 & r2 & -> & Sg2 & U2).
    { rewrite (seg_length _ _ _ _ Sg). lia. }
    apply (seg_widen f (p - 1) f la) in Sg2; try lia.
    destruct r2 as [[]|e|].
    2: { exists l2, s2, (Err e). split; [reflexivity|]. split; [eapply seg_trans; eassumption|]. intro; discriminate. }
    2: { exists l2, s2, UB. split; [reflexivity|]. split; [eapply seg_trans; eassumption|]. intro H1; exfalso; apply (U2 H1); reflexivity. }
    destruct (IH l2 s2 (p + 1) la) as (l3 & s3 & r3 & -> & Sg3 & U3); try lia.
    { rewrite (seg_length _ _ _ _ Sg2), (seg_length _ _ _ _ Sg). lia. }
    apply (seg_widen (p + 1) la f la) in Sg3; try lia.
    exists l3, s3, r3. split; [reflexivity|]. split; [|assumption]. eapply seg_trans; [eassumption|]. eapply seg_trans; eassumption.
Qed.

Lemma sort_any fuel l s :
  exists l' s' r, sortArray A S cmp fuel l s = ((l', s'), r) /\ Permutation l l' /\ okub r.
Proof.
  unfold sortArray. destruct (0 <? Z.of_nat (length l)) eqn:E.
  - destruct (qsortEx_any fuel fuel l s 0 (Z.of_nat (length l) - 1)) as (l' & s' & r & -> & (P & _) & U); try lia.
    exists l', s', r. auto.
  - exists l, s, (Ok tt). repeat split; auto. intro; discriminate.
Qed.
End Any.

(** ** A comparison function that is a function of the items *)
Section Pure.
Variables A S : Type.
Variable cmp : S -> A -> A -> S * outcome Z.
Variable c : A -> A -> Z.
Variable P : A -> Prop.
Hypothesis Hc : forall s x y, P x -> P y -> snd (cmp s x y) = Ok (c x y).
Hypothesis Hrefl : forall x, P x -> c x x <= 0.

Definition allP (l : list A) : Prop := forall k x, at_ l k = Some x -> P x.

Lemma compare_pure i j l s x y :
  allP l -> at_ l i = Some x -> at_ l j = Some y ->
  exists s', compare A S cmp i j (l, s) = ((l, s'), Ok (c x y)).
Proof.
  intros AP Ex Ey. unfold compare. rewrite Ex, Ey. specialize (Hc s x y (AP _ _ Ex) (AP _ _ Ey)).
  destruct (cmp s x y) as [s' r]. cbn in Hc. subst r. eauto.
Qed.

Definition atc (l : list A) (k : Z) (p : A) : Z := match at_ l k with Some x => c x p | None => 0 end.

Lemma scanUp_pure fuel : forall l s i pv la p,
  allP l -> at_ l pv = Some p -> 0 <= i -> i <= la < Z.of_nat (length l) -> (Z.to_nat (la - i) < fuel)%nat ->
  exists s' i', scanUp A S cmp fuel i pv la (l, s) = ((l, s'), Ok i') /\ i <= i' <= la /\
    (forall k, i <= k < i' -> atc l k p <= 0) /\ (atc l i' p > 0 \/ i' = la) /\ (atc l i p <= 0 -> i < la -> i < i').
Proof.
  induction fuel as [|fuel IH]; intros l s i pv la p AP Hp Hi Hl Hf; [lia|].
  cbn [scanUp]. unfold mbind. destruct (at_some l i ltac:(lia)) as [x Ex].
  destruct (compare_pure i pv l s x p AP Ex Hp) as (s1 & ->).
  destruct ((c x p <=? 0) && (i <? la)) eqn:E.
  - destruct (IH l s1 (i + 1) pv la p AP Hp ltac:(lia) ltac:(lia) ltac:(lia)) as (s2 & i' & -> & R & B & T & _).
    exists s2, i'. split; [reflexivity|]. split; [lia|]. split; [|split; [auto|lia]].
    intros k Hk. destruct (Z.eq_dec k i) as [->|Nk]; [|apply B; lia]. unfold atc. rewrite Ex. lia.
  - exists s1, i. split; [reflexivity|]. split; [lia|]. split; [intros; lia|]. unfold atc. rewrite Ex. split; lia.
Qed.

Lemma scanDown_pure fuel : forall l s j pv f p,
  allP l -> at_ l pv = Some p -> 0 <= f <= j -> j < Z.of_nat (length l) -> (Z.to_nat (j - f) < fuel)%nat ->
  exists s' j', scanDown A S cmp fuel j pv f (l, s) = ((l, s'), Ok j') /\ f <= j' <= j /\
    (forall k, j' < k <= j -> atc l k p > 0) /\ (atc l j' p <= 0 \/ j' = f) /\ (atc l j p > 0 -> f < j -> j' < j).
Proof.
  induction fuel as [|fuel IH]; intros l s j pv f p AP Hp Hj Hl Hf; [lia|].
  cbn [scanDown]. unfold mbind. destruct (at_some l j ltac:(lia)) as [x Ex].
  destruct (compare_pure j pv l s x p AP Ex Hp) as (s1 & ->).
  destruct ((0 <? c x p) && (f <? j)) eqn:E.
  - destruct (IH l s1 (j - 1) pv f p AP Hp ltac:(lia) ltac:(lia) ltac:(lia)) as (s2 & i' & -> & R & B & T & _).
    exists s2, i'. split; [reflexivity|]. split; [lia|]. split; [|split; [auto|lia]].
    intros k Hk. destruct (Z.eq_dec k j) as [->|Nk]; [|apply B; lia]. unfold atc. rewrite Ex. lia.
  - exists s1, j. split; [reflexivity|]. split; [lia|]. split; [intros; lia|]. unfold atc. rewrite Ex. split; lia.
Qed.

Lemma allP_seg f la l l' : 0 <= f -> la < Z.of_nat (length l) -> allP l -> seg f la l l' -> allP l'.
Proof.
  intros Hf Hl AP (Pm & O & I) k x E.
  destruct (Z.le_gt_cases f k) as [B|B]; [destruct (Z.le_gt_cases k la) as [C|C]|].
  - destruct (I k ltac:(lia)) as (k' & _ & E'). apply (AP k'). congruence.
  - apply (AP k). rewrite <- O by lia. exact E.
  - apply (AP k). rewrite <- O by lia. exact E.
Qed.

Lemma atc_swapped l i j x y k p :
  at_ l i = Some x -> at_ l j = Some y ->
  atc (swapped l i j x y) k p = if k =? j then c x p else if k =? i then c y p else atc l k p.
Proof.
  intros Hi Hj. unfold atc. rewrite (swapped_at l i j x y k Hi Hj). destruct (k =? j); auto. destruct (k =? i); auto.
Qed.

Lemma partition_step fuel l s i j f la p :
  allP l -> 0 <= f -> la < Z.of_nat (length l) -> f <= i -> i < j -> j <= la ->
  at_ l f = Some p -> atc l i p <= 0 ->
  (forall k, f <= k < i -> atc l k p <= 0) -> (forall k, j < k <= la -> atc l k p > 0) ->
  (Z.to_nat (la - i) <= fuel)%nat -> (Z.to_nat (j - f) <= fuel)%nat ->
  exists l1 s1 i1 j1,
    partitionLoop A S cmp (Datatypes.S fuel) i j f la (l, s) = partitionLoop A S cmp fuel i1 j1 f la (l1, s1) /\
    seg f la l l1 /\ at_ l1 f = Some p /\ i < i1 <= la /\ f <= j1 <= j /\
    (forall k, f <= k < i1 -> atc l1 k p <= 0) /\ (forall k, j1 < k <= la -> atc l1 k p > 0) /\
    ((i1 < j1 /\ atc l1 i1 p <= 0 /\ atc l1 j1 p > 0) \/ (j1 <= i1 /\ atc l1 j1 p <= 0)) /\
    (atc l j p > 0 -> j1 < j).
Proof.
  intros AP Hf Hl Hi Hij Hj Hp Ci Lo Hi' F1 F2.
  cbn [partitionLoop]. replace (i <? j) with true by lia. unfold mbind at 1.
  destruct (scanUp_pure (Datatypes.S fuel) l s i f la p AP Hp ltac:(lia) ltac:(lia) ltac:(lia))
    as (s1 & i1 & -> & R1 & B1 & T1 & G1).
  specialize (G1 Ci ltac:(lia)). unfold mbind at 1.
  destruct (scanDown_pure (Datatypes.S fuel) l s1 j f f p AP Hp ltac:(lia) ltac:(lia) ltac:(lia))
    as (s2 & j1 & -> & R2 & B2 & T2 & G2).
  unfold mbind at 1.
  assert (LoA : forall k, f <= k < i1 -> atc l k p <= 0).
  { intros k Hk. destruct (Z.le_gt_cases i k); [apply B1; lia|apply Lo; lia]. }
  assert (HiA : forall k, j1 < k <= la -> atc l k p > 0).
  { intros k Hk. destruct (Z.le_gt_cases k j); [apply B2; lia|apply Hi'; lia]. }
  assert (Cf : atc l f p <= 0) by (apply LoA; lia).
  destruct (i1 <? j1) eqn:E1.
  - destruct (swap_any A S l s2 i1 j1 f la ltac:(lia) ltac:(lia) Hf Hl) as (x & y & Ax & Ay & -> & Sg).
    assert (Cx : c x p > 0). { destruct T1 as [T1|T1]; [|lia]. unfold atc in T1. rewrite Ax in T1. exact T1. }
    assert (Cy : c y p <= 0). { destruct T2 as [T2|T2]; [|lia]. unfold atc in T2. rewrite Ay in T2. exact T2. }
    exists (swapped l i1 j1 x y), s2, i1, j1.
    split; [reflexivity|]. split; [exact Sg|].
    split. { rewrite (swapped_at l i1 j1 x y f Ax Ay). replace (f =? j1) with false by lia. replace (f =? i1) with false by lia. exact Hp. }
    split; [lia|]. split; [lia|].
    split. { intros k Hk. rewrite (atc_swapped l i1 j1 x y k p Ax Ay). replace (k =? j1) with false by lia. replace (k =? i1) with false by lia. apply LoA. exact Hk. }
    split. { intros k Hk. rewrite (atc_swapped l i1 j1 x y k p Ax Ay). replace (k =? j1) with false by lia. replace (k =? i1) with false by lia. apply HiA. exact Hk. }
    split.
    + left. split; [lia|]. rewrite !(atc_swapped l i1 j1 x y _ p Ax Ay).
      replace (i1 =? j1) with false by lia. rewrite !Z.eqb_refl. lia.
    + intro G. apply G2; [exact G|lia].
  - unfold ret. exists l, s2, i1, j1. split; [reflexivity|]. split; [apply seg_refl|]. split; [exact Hp|].
    split; [lia|]. split; [lia|]. split; [exact LoA|]. split; [exact HiA|]. split.
    + right. split; [lia|]. destruct T2 as [T2|T2]; [exact T2|subst j1; exact Cf].
    + intro G. apply G2; [exact G|lia].
Qed.

Lemma partition_later fuel : forall l s i j f la p,
  allP l -> 0 <= f -> la < Z.of_nat (length l) -> f < i <= la -> f <= j <= la ->
  at_ l f = Some p ->
  (forall k, f <= k < i -> atc l k p <= 0) -> (forall k, j < k <= la -> atc l k p > 0) ->
  ((i < j /\ atc l i p <= 0 /\ atc l j p > 0) \/ (j <= i /\ atc l j p <= 0)) ->
  (Z.to_nat (la - i) < fuel)%nat -> (Z.to_nat (j - f) < fuel)%nat ->
  exists l' s' j', partitionLoop A S cmp fuel i j f la (l, s) = ((l', s'), Ok j') /\ seg f la l l' /\
    f <= j' <= la /\ at_ l' f = Some p /\
    (forall k, f <= k <= j' -> atc l' k p <= 0) /\ (forall k, j' < k <= la -> atc l' k p > 0).
Proof.
  induction fuel as [|fuel IH]; intros l s i j f la p AP Hf Hl Hi Hj Hp Lo Hh D F1 F2; [lia|].
  destruct D as [(Hij & Ci & Cj)|(Hij & Cj)].
  - destruct (partition_step fuel l s i j f la p AP Hf Hl ltac:(lia) Hij ltac:(lia) Hp Ci Lo Hh ltac:(lia) ltac:(lia))
      as (l1 & s1 & i1 & j1 & -> & Sg & Hp1 & Ri & Rj & Lo1 & Hi1 & D1 & G).
    specialize (G Cj).
    destruct (IH l1 s1 i1 j1 f la p) as (l' & s' & j' & -> & Sg' & R & X); try assumption; try lia.
    { eapply allP_seg; eassumption. }
    { rewrite (seg_length _ _ _ _ Sg). exact Hl. }
    exists l', s', j'. split; [reflexivity|]. split; [eapply seg_trans; eassumption|]. split; assumption.
  - cbn [partitionLoop]. replace (i <? j) with false by lia. exists l, s, j.
    split; [reflexivity|]. split; [apply seg_refl|]. split; [lia|]. split; [exact Hp|]. split; [|exact Hh].
    intros k Hk. destruct (Z.eq_dec k j) as [->|N]; [exact Cj|]. apply Lo. lia.
Qed.

Lemma partition_pure fuel l s f la :
  allP l -> 0 <= f -> la < Z.of_nat (length l) -> f < la -> (Z.to_nat (la - f) + 1 < fuel)%nat ->
  exists l' s' j p, qsortPartition A S cmp fuel f la (l, s) = ((l', s'), Ok j) /\ seg f la l l' /\
    f <= j <= la /\ at_ l' j = Some p /\
    (forall k, f <= k < j -> atc l' k p <= 0) /\ (forall k, j < k <= la -> atc l' k p > 0).
Proof.
  intros AP Hf Hl H F. destruct (at_some l f ltac:(lia)) as [p Hp].
  assert (Cf : atc l f p <= 0). { unfold atc. rewrite Hp. apply Hrefl. apply (AP _ _ Hp). }
  unfold qsortPartition, mbind at 1. destruct fuel as [|fuel]; [lia|].
  destruct (partition_step fuel l s f la f la p AP Hf Hl ltac:(lia) H ltac:(lia) Hp Cf ltac:(lia) ltac:(lia) ltac:(lia) ltac:(lia))
    as (l1 & s1 & i1 & j1 & -> & Sg & Hp1 & Ri & Rj & Lo1 & Hi1 & D1 & _).
  destruct (partition_later fuel l1 s1 i1 j1 f la p) as (l2 & s2 & j & -> & Sg2 & R & Hp2 & Lo2 & Hi2); try assumption; try lia.
  { eapply allP_seg; eassumption. }
  { rewrite (seg_length _ _ _ _ Sg). exact Hl. }
  assert (L2 : length l2 = length l) by (rewrite (seg_length _ _ _ _ Sg2); apply (seg_length _ _ _ _ Sg)).
  unfold mbind. destruct (swap_any A S l2 s2 f j f la) as (x & y & Ax & Ay & -> & Sg3); try lia.
  assert (x = p) by congruence. subst x.
  exists (swapped l2 f j p y), s2, j, p. split; [reflexivity|].
  split; [eapply seg_trans; [eassumption|]; eapply seg_trans; eassumption|]. split; [lia|].
  split. { rewrite (swapped_at l2 f j p y j Ax Ay), Z.eqb_refl. reflexivity. }
  assert (Cy : c y p <= 0). { pose proof (Lo2 j ltac:(lia)) as Q. unfold atc in Q. rewrite Ay in Q. exact Q. }
  split; intros k Hk; rewrite (atc_swapped l2 f j p y k p Ax Ay).
  - replace (k =? j) with false by lia. destruct (k =? f); [exact Cy|]. apply Lo2. lia.
  - replace (k =? j) with false by lia. replace (k =? f) with false by lia. apply Hi2. lia.
Qed.

(** Termination needs only a reflexive comparison. *)
Lemma qsort_terminates fuel pf : forall l s f la,
  allP l -> 0 <= f -> la < Z.of_nat (length l) -> (Z.to_nat (la - f + 1) < fuel)%nat -> (Z.to_nat (la - f) + 1 < pf)%nat ->
  exists l' s', qsortEx A S cmp fuel pf f la (l, s) = ((l', s'), Ok tt) /\ seg f la l l'.
Proof.
  induction fuel as [|fuel IH]; intros l s f la AP Hf Hl F Fp; [lia|].
  cbn [qsortEx]. destruct (la <=? f) eqn:E.
  { exists l, s. split; [reflexivity|apply seg_refl]. }
  unfold mbind at 1.
  destruct (partition_pure pf l s f la AP Hf Hl ltac:(lia) Fp) as (l1 & s1 & j & p & -> & Sg & R & _).
  assert (L1 : length l1 = length l) by apply (seg_length _ _ _ _ Sg).
  assert (AP1 : allP l1) by (eapply allP_seg; eassumption).
  unfold mbind. destruct (IH l1 s1 f (j - 1) AP1 Hf ltac:(lia) ltac:(lia) ltac:(lia)) as (l2 & s2 & -> & Sg2).
  assert (L2 : length l2 = length l1) by apply (seg_length _ _ _ _ Sg2).
  apply (seg_widen f (j - 1) f la) in Sg2; try lia.
  assert (AP2 : allP l2) by (apply (allP_seg f la l1 l2); [lia|lia|assumption|assumption]).
  destruct (IH l2 s2 (j + 1) la AP2 ltac:(lia) ltac:(lia) ltac:(lia) ltac:(lia)) as (l3 & s3 & -> & Sg3).
  apply (seg_widen (j + 1) la f la) in Sg3; try lia.
  exists l3, s3. split; [reflexivity|]. eapply seg_trans; [eassumption|]. eapply seg_trans; eassumption.
Qed.

Hypothesis Htrans : forall x y z, P x -> P y -> P z -> c x y <= 0 -> c y z <= 0 -> c x z <= 0.
Hypothesis Htotal : forall x y, P x -> P y -> c x y > 0 -> c y x <= 0.

Definition sorted_seg (l : list A) (f la : Z) : Prop :=
  forall k k' x y, f <= k < k' -> k' <= la -> at_ l k = Some x -> at_ l k' = Some y -> c x y <= 0.

Lemma sorted_outside l l' f la f' la' :
  seg f' la' l l' -> (la < f' \/ la' < f) -> sorted_seg l f la -> sorted_seg l' f la.
Proof.
  intros (_ & O & _) D H k k' x y Hk Hk' Ex Ey. apply (H k k'); try assumption; rewrite <- O; auto; lia.
Qed.

Lemma qsort_sorts fuel pf : forall l s f la,
  allP l -> 0 <= f -> la < Z.of_nat (length l) -> (Z.to_nat (la - f + 1) < fuel)%nat -> (Z.to_nat (la - f) + 1 < pf)%nat ->
  exists l' s', qsortEx A S cmp fuel pf f la (l, s) = ((l', s'), Ok tt) /\ seg f la l l' /\ sorted_seg l' f la.
Proof.
  induction fuel as [|fuel IH]; intros l s f la AP Hf Hl F Fp; [lia|].
  cbn [qsortEx]. destruct (la <=? f) eqn:E.
  { exists l, s. split; [reflexivity|]. split; [apply seg_refl|]. intros k k' x y H1 H2. lia. }
  unfold mbind at 1.
  destruct (partition_pure pf l s f la AP Hf Hl ltac:(lia) Fp) as (l1 & s1 & j & p & -> & Sg & R & Hp & Lo & Hh).
  assert (L1 : length l1 = length l) by apply (seg_length _ _ _ _ Sg).
  assert (AP1 : allP l1) by (eapply allP_seg; eassumption).
  unfold mbind. destruct (IH l1 s1 f (j - 1) AP1 Hf ltac:(lia) ltac:(lia) ltac:(lia)) as (l2 & s2 & -> & Sg2 & So2).
  assert (L2 : length l2 = length l1) by apply (seg_length _ _ _ _ Sg2).
  pose proof (seg_widen f (j - 1) f la _ _ ltac:(lia) ltac:(lia) Sg2) as Sg2w.
  assert (AP2 : allP l2) by (apply (allP_seg f la l1 l2); [lia|lia|assumption|assumption]).
  destruct (IH l2 s2 (j + 1) la AP2 ltac:(lia) ltac:(lia) ltac:(lia) ltac:(lia)) as (l3 & s3 & -> & Sg3 & So3).
  pose proof (seg_widen (j + 1) la f la _ _ ltac:(lia) ltac:(lia) Sg3) as Sg3w.
  assert (AP3 : allP l3) by (apply (allP_seg f la l2 l3); [lia|lia|assumption|assumption]).
  exists l3, s3. split; [reflexivity|]. split; [eapply seg_trans; [eassumption|]; eapply seg_trans; eassumption|].
  assert (Hj : at_ l3 j = Some p).
  { destruct Sg3 as (_ & O3 & _). rewrite O3 by lia. destruct Sg2 as (_ & O2 & _). rewrite O2 by lia. exact Hp. }
  assert (LoF : forall k x, f <= k < j -> at_ l3 k = Some x -> c x p <= 0).
  { intros k x Hk Ex. destruct Sg3 as (_ & O3 & _). rewrite O3 in Ex by lia.
    destruct Sg2 as (_ & _ & I2). destruct (I2 k ltac:(lia)) as (k' & Hk' & E2).
    pose proof (Lo k' ltac:(lia)) as Q. unfold atc in Q. rewrite <- E2, Ex in Q. exact Q. }
  assert (HiF : forall k x, j < k <= la -> at_ l3 k = Some x -> c p x <= 0).
  { intros k x Hk Ex. destruct Sg3 as (_ & _ & I3). destruct (I3 k ltac:(lia)) as (k' & Hk' & E3).
    destruct Sg2 as (_ & O2 & _). rewrite O2 in E3 by lia.
    pose proof (Hh k' ltac:(lia)) as Q. unfold atc in Q. rewrite <- E3, Ex in Q.
    apply Htotal; try exact Q; [apply (AP3 _ _ Ex)|apply (AP3 _ _ Hj)]. }
  pose proof (sorted_outside _ _ f (j - 1) (j + 1) la Sg3 ltac:(lia) So2) as So2'.
  intros k k' x y Hk Hk' Ex Ey.
  assert (Px : P x) by apply (AP3 _ _ Ex). assert (Py : P y) by apply (AP3 _ _ Ey). assert (Pp : P p) by apply (AP3 _ _ Hj).
  destruct (Z.lt_trichotomy k j) as [B|[B|B]]; destruct (Z.lt_trichotomy k' j) as [C|[C|C]]; try lia.
  - apply (So2' k k'); auto; lia.
  - subst k'. assert (y = p) by congruence. subst y. apply (LoF k); auto; lia.
  - apply (Htrans x p y); auto; [apply (LoF k); auto; lia|apply (HiF k'); auto; lia].
  - subst k. assert (x = p) by congruence. subst x. apply (HiF k'); auto; lia.
  - apply (So3 k k'); auto; lia.
Qed.
End Pure.

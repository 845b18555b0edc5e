From Coq Require Import ZArith Lia Bool List Permutation.
From Coq Require Import ZifyBool.
From Coq.Floats Require Import SpecFloat.
From Verif Require Import Base SortModel SortProofs NumModel NumSpec NumProofs MemModel CmpModel CmpSpec CmpProofs CmpOrder.
Import ListNotations.
Local Open Scope Z_scope.

Lemma sort_permutes A S closure fuel (l : list A) (s : S) :
  exists l' s' r, doBuiltinSort fuel closure l s = ((l', s'), r) /\ Permutation l l' /\
    ((forall s x y, snd (closure s x y) <> UB) -> r <> UB).
Proof.
  destruct (sort_any A S (qsortCompare closure) fuel l s) as (l' & s' & r & E & P & U).
  exists l', s', r. split; [exact E|]. split; [exact P|]. intro H. apply U. intros s0 x y.
  unfold qsortCompare. specialize (H s0 x y). destruct (closure s0 x y) as [s1 [z|e|]]; cbn in *; congruence.
Qed.

Lemma sortfast_permutes A diff asc fuel (l : list A) :
  exists l' r, doBuiltinSortFast fuel diff asc l = ((l', tt), r) /\ Permutation l l' /\
    ((forall x y, diff x y <> UB) -> r <> UB).
Proof.
  destruct (sort_any A unit (qsortFastCompare diff asc) fuel l tt) as (l' & [] & r & E & P & U).
  exists l', r. split; [exact E|]. split; [exact P|]. intro H. apply U. intros s0 x y.
  unfold qsortFastCompare. specialize (H x y). cbn. destruct (diff x y); cbn in *; congruence.
Qed.

Lemma at_nth {A} (l : list A) n : at_ l (Z.of_nat n) = nth_error l n.
Proof. unfold at_. replace (Z.of_nat n <? 0) with false by lia. rewrite Nat2Z.id. reflexivity. Qed.

Lemma at_In {A} (l : list A) k x : at_ l k = Some x -> In x l.
Proof. unfold at_. destruct (k <? 0); [discriminate|]. apply nth_error_In. Qed.

Section Generic.
Variables A S : Type.
Variable cmp : S -> A -> A -> S * outcome Z.
Variable c : A -> A -> Z.

Lemma sort_terminates_gen fuel l s :
  (forall s x y, In x l -> In y l -> snd (cmp s x y) = Ok (c x y)) ->
  (forall x, In x l -> c x x <= 0) ->
  (length l + 1 < fuel)%nat ->
  exists l' s', sortArray A S cmp fuel l s = ((l', s'), Ok tt) /\ Permutation l l'.
Proof.
  intros Hc Hr F. unfold sortArray. destruct (0 <? Z.of_nat (length l)) eqn:E; [|eauto].
  destruct (qsort_terminates A S cmp c (fun x => In x l) Hc Hr fuel fuel l s 0 (Z.of_nat (length l) - 1)) as (l' & s' & -> & (P & _)); try lia.
  - intros k x. apply at_In.
  - eauto.
Qed.

Lemma sort_sorts_gen fuel l s :
  (forall s x y, In x l -> In y l -> snd (cmp s x y) = Ok (c x y)) ->
  (forall x, In x l -> c x x <= 0) ->
  (forall x y z, In x l -> In y l -> In z l -> c x y <= 0 -> c y z <= 0 -> c x z <= 0) ->
  (forall x y, In x l -> In y l -> c x y > 0 -> c y x <= 0) ->
  (length l + 1 < fuel)%nat ->
  exists l' s', sortArray A S cmp fuel l s = ((l', s'), Ok tt) /\ Permutation l l' /\
    forall i j x y, (i < j)%nat -> nth_error l' i = Some x -> nth_error l' j = Some y -> c x y <= 0.
Proof.
  intros Hc Hr Ht Hto F. unfold sortArray. destruct (0 <? Z.of_nat (length l)) eqn:E.
  - destruct (qsort_sorts A S cmp c (fun x => In x l) Hc Hr Ht Hto fuel fuel l s 0 (Z.of_nat (length l) - 1)) as (l' & s' & -> & Sg & So); try lia.
    + intros k x. apply at_In.
    + exists l', s'. split; [reflexivity|]. split; [apply Sg|].
      intros i j x y Hij Ex Ey. rewrite <- at_nth in Ex, Ey. pose proof (at_range _ _ _ Ey) as R.
      rewrite (seg_length _ _ _ _ Sg) in R. apply (So (Z.of_nat i) (Z.of_nat j)); auto; lia.
  - exists l, s. split; [reflexivity|]. split; [apply Permutation_refl|].
    intros i j x y Hij Ex Ey. destruct l; [|cbn in E; lia]. destruct i; discriminate.
Qed.
End Generic.

Lemma s32_id z : INT_MIN <= z <= INT_MAX -> s32 z = z.
Proof.
  unfold s32, wraps, INT_MIN, INT_MAX, two32, two31. intro H. change (4294967296 / 2) with 2147483648.
  rewrite Z.mod_small by lia. lia.
Qed.

Lemma sort_sorts A S (closure : S -> A -> A -> S * outcome Z) (c : A -> A -> Z) fuel l s :
  (forall s x y, In x l -> In y l -> snd (closure s x y) = Ok (c x y) /\ INT_MIN <= c x y <= INT_MAX) ->
  (forall x, In x l -> c x x <= 0) ->
  (forall x y z, In x l -> In y l -> In z l -> c x y <= 0 -> c y z <= 0 -> c x z <= 0) ->
  (forall x y, In x l -> In y l -> c x y > 0 -> c y x <= 0) ->
  (length l + 1 < fuel)%nat ->
  exists l' s', doBuiltinSort fuel closure l s = ((l', s'), Ok tt) /\ Permutation l l' /\
    forall i j x y, (i < j)%nat -> nth_error l' i = Some x -> nth_error l' j = Some y -> c x y <= 0.
Proof.
  intros Hc Hr Ht Hto F. apply sort_sorts_gen; auto.
  intros s0 x y Hx Hy. destruct (Hc s0 x y Hx Hy) as [E R]. unfold qsortCompare.
  destruct (closure s0 x y) as [s1 r]. cbn in *. subst r. cbn. rewrite s32_id by exact R. reflexivity.
Qed.

Lemma sort_terminates A S (closure : S -> A -> A -> S * outcome Z) (c : A -> A -> Z) fuel l s :
  (forall s x y, In x l -> In y l -> snd (closure s x y) = Ok (c x y)) ->
  (forall x, In x l -> s32 (c x x) <= 0) ->
  (length l + 1 < fuel)%nat ->
  exists l' s', doBuiltinSort fuel closure l s = ((l', s'), Ok tt) /\ Permutation l l'.
Proof.
  intros Hc Hr F. apply (sort_terminates_gen A S (qsortCompare closure) (fun x y => s32 (c x y))); auto.
  intros s0 x y Hx Hy. specialize (Hc s0 x y Hx Hy). unfold qsortCompare.
  destruct (closure s0 x y) as [s1 r]. cbn in *. subst r. reflexivity.
Qed.

(** sort() without a comparison function orders by the content of the selected field. *)
Definition fastc {A} (key : A -> cval) (asc : bool) (x y : A) : Z :=
  match vcmp (key x) (key y) with
  | Some Lt => if asc then -1 else 1
  | Some Gt => if asc then 1 else -1
  | _ => 0
  end.

Lemma sortfast_sorts A (diff : A -> A -> outcome Z) (key : A -> cval) asc fuel l :
  (forall x y, In x l -> In y l -> exists d c, diff x y = Ok d /\ vcmp (key x) (key y) = Some c /\ sign_is d c) ->
  (length l + 1 < fuel)%nat ->
  exists l', doBuiltinSortFast fuel diff asc l = ((l', tt), Ok tt) /\ Permutation l l' /\
    forall i j x y, (i < j)%nat -> nth_error l' i = Some x -> nth_error l' j = Some y ->
      exists c, vcmp (key x) (key y) = Some c /\ c <> (if asc then Gt else Lt).
Proof.
  intros H F.
  destruct (sort_sorts_gen A unit (qsortFastCompare diff asc) (fastc key asc) fuel l tt) as (l' & [] & E & P & So); auto.
  - intros s x y Hx Hy. destruct (H x y Hx Hy) as (d & c & D & V & Sg). cbn. rewrite D. cbn. unfold fastc. rewrite V.
    unfold sign_is in Sg. f_equal.
    destruct c; [rewrite Z.compare_eq_iff in Sg|rewrite Z.compare_lt_iff in Sg|rewrite Z.compare_gt_iff in Sg].
    + subst d. reflexivity.
    + replace (d =? 0) with false by lia. replace (0 <? d) with false by lia. destruct asc; reflexivity.
    + replace (d =? 0) with false by lia. replace (0 <? d) with true by lia. destruct asc; reflexivity.
  - intros x Hx. destruct (H x x Hx Hx) as (d & c & D & V & Sg). unfold fastc.
    pose proof (vcmp_antisym (key x) (key x)) as AS. rewrite V in *. destruct c; cbn in AS; discriminate.
  - intros x y z Hx Hy Hz. destruct (H x y Hx Hy) as (_ & c1 & _ & V1 & _). destruct (H y z Hy Hz) as (_ & c2 & _ & V2 & _).
    pose proof (vcmp_trans (key x) (key y) (key z)) as T. unfold fastc. rewrite V1, V2 in *.
    destruct c1, c2, asc; cbn in T; try rewrite T; try lia.
  - intros x y Hx Hy. destruct (H x y Hx Hy) as (_ & c1 & _ & V1 & _). unfold fastc.
    rewrite (vcmp_antisym (key x) (key y)), V1. destruct c1, asc; cbn; lia.
  - exists l'. split; [exact E|]. split; [exact P|]. intros i j x y Hij Ex Ey.
    assert (In x l). { apply (Permutation_in x (Permutation_sym P)). eapply nth_error_In; eassumption. }
    assert (In y l). { apply (Permutation_in y (Permutation_sym P)). eapply nth_error_In; eassumption. }
    destruct (H x y) as (_ & c & _ & V & _); auto. exists c. split; [exact V|].
    specialize (So i j x y Hij Ex Ey). unfold fastc in So. rewrite V in So. destruct c, asc; intro; try discriminate; lia.
Qed.

(** The result of the comparison function is cut to 32 bits: fn(a, b: ^int): int {return a^ - b^} *)
Lemma sort_truncation_witness :
  let closure (s : unit) (a b : Z) := (s, Ok (a - b)) in
  doBuiltinSort 5 closure [0; 4294967296] tt = (([4294967296; 0], tt), Ok tt).
Proof. vm_compute. reflexivity. Qed.

(** A comparison function with compare(a, a) > 0 can make sort() loop forever. *)
Definition badcmp (s : unit) (a b : Z) : unit * outcome Z := (s, Ok (if a =? b then 1 else 0)).

Lemma sort_divergence_witness : forall fuel, snd (doBuiltinSort fuel badcmp [1; 2] tt) = Err EFuel.
Proof.
  assert (H : forall n l, l = [1; 2] \/ l = [2; 1] -> snd (partitionLoop Z unit (qsortCompare badcmp) n 0 1 0 1 (l, tt)) = Err EFuel).
  { induction n as [|n IH]; intros l Hl; [reflexivity|].
    cbn [partitionLoop]. change (0 <? 1) with true. cbn iota. unfold mbind at 1.
    assert (E1 : scanUp Z unit (qsortCompare badcmp) (S n) 0 0 1 (l, tt) = ((l, tt), Ok 0)).
    { cbn [scanUp]. unfold mbind. destruct Hl as [-> | ->]; reflexivity. }
    rewrite E1. unfold mbind at 1.
    assert (E2 : scanDown Z unit (qsortCompare badcmp) (S n) 1 0 0 (l, tt) = ((l, tt), Ok 1)).
    { cbn [scanDown]. unfold mbind. destruct Hl as [-> | ->]; reflexivity. }
    rewrite E2. change (0 <? 1) with true. cbn iota. unfold mbind.
    destruct Hl as [-> | ->]; cbn; apply IH; auto. }
  intro fuel. unfold doBuiltinSort, sortArray. cbn [length]. change (0 <? Z.of_nat 2) with true. cbn iota.
  change (Z.of_nat 2 - 1) with 1.
  destruct fuel as [|fuel]; [reflexivity|]. cbn [qsortEx]. change (1 <=? 0) with false. cbn iota.
  unfold mbind at 1, qsortPartition, mbind at 1.
  specialize (H (S fuel) [1; 2] (or_introl eq_refl)).
  destruct (partitionLoop Z unit (qsortCompare badcmp) (S fuel) 0 1 0 1 ([1; 2], tt)) as [st r]. cbn in H. subst r. reflexivity.
Qed.

Lemma sort_example :
  doBuiltinSort 10 (fun (s : unit) (a b : Z) => (s, Ok (a - b))) [3; 1; 2; 1; 5] tt = (([1; 1; 2; 3; 5], tt), Ok tt).
Proof. vm_compute. reflexivity. Qed.

(** C07, C08: the sort() builtins. *)
From Coq Require Import ZArith List Permutation.
From Verif Require Import Base SortModel SortExtra CmpModel CmpSpec.
Import ListNotations.
Local Open Scope Z_scope.

(** C07: whatever the comparison function answers, however it keeps state, and even if it stops with a run-time error in
    the middle, the array holds a permutation of its original items; the sort itself never touches memory outside the array. *)
Theorem C07_sort_permutes :
  forall A S closure fuel (l : list A) (s : S),
    exists l' s' r, doBuiltinSort fuel closure l s = ((l', s'), r) /\ Permutation l l' /\
      ((forall s x y, snd (closure s x y) <> UB) -> r <> UB).
Proof. exact sort_permutes. Qed.
Print Assumptions C07_sort_permutes.

Theorem C07_sortfast_permutes :
  forall A diff asc fuel (l : list A),
    exists l' r, doBuiltinSortFast fuel diff asc l = ((l', tt), r) /\ Permutation l l' /\
      ((forall x y, diff x y <> UB) -> r <> UB).
Proof. exact sortfast_permutes. Qed.
Print Assumptions C07_sortfast_permutes.

(** Sorting ends whenever the comparison function is a function of the items and does not say a > a. *)
Theorem C07_sort_terminates :
  forall A S (closure : S -> A -> A -> S * outcome Z) (c : A -> A -> Z) fuel l s,
    (forall s x y, In x l -> In y l -> snd (closure s x y) = Ok (c x y)) ->
    (forall x, In x l -> s32 (c x x) <= 0) ->
    (length l + 1 < fuel)%nat ->
    exists l' s', doBuiltinSort fuel closure l s = ((l', s'), Ok tt) /\ Permutation l l'.
Proof. exact sort_terminates. Qed.
Print Assumptions C07_sort_terminates.

(** Without that, it may not end. *)
Theorem C07_sort_termination_refuted : forall fuel, snd (doBuiltinSort fuel badcmp [1; 2] tt) = Err EFuel.
Proof. exact sort_divergence_witness. Qed.
Print Assumptions C07_sort_termination_refuted.

(** C08: with a comparison function that is a total preorder and answers within 32 bits, the result is sorted. *)
Theorem C08_sort_sorts :
  forall A S (closure : S -> A -> A -> S * outcome Z) (c : A -> A -> Z) fuel l s,
    (forall s x y, In x l -> In y l -> snd (closure s x y) = Ok (c x y) /\ INT_MIN <= c x y <= INT_MAX) ->
    (forall x, In x l -> c x x <= 0) ->
    (forall x y z, In x l -> In y l -> In z l -> c x y <= 0 -> c y z <= 0 -> c x z <= 0) ->
    (forall x y, In x l -> In y l -> c x y > 0 -> c y x <= 0) ->
    (length l + 1 < fuel)%nat ->
    exists l' s', doBuiltinSort fuel closure l s = ((l', s'), Ok tt) /\ Permutation l l' /\
      forall i j x y, (i < j)%nat -> nth_error l' i = Some x -> nth_error l' j = Some y -> c x y <= 0.
Proof. exact sort_sorts. Qed.
Print Assumptions C08_sort_sorts.

(** The builtin comparison: sorted by the content of the selected field, ascending or descending, for all contents on which
    doCompare is exact (C06). *)
Theorem C08_sortfast_sorts :
  forall A (diff : A -> A -> outcome Z) (key : A -> cval) asc fuel l,
    (forall x y, In x l -> In y l -> exists d c, diff x y = Ok d /\ vcmp (key x) (key y) = Some c /\ sign_is d c) ->
    (length l + 1 < fuel)%nat ->
    exists l', doBuiltinSortFast fuel diff asc l = ((l', tt), Ok tt) /\ Permutation l l' /\
      forall i j x y, (i < j)%nat -> nth_error l' i = Some x -> nth_error l' j = Some y ->
        exists c, vcmp (key x) (key y) = Some c /\ c <> (if asc then Gt else Lt).
Proof. exact sortfast_sorts. Qed.
Print Assumptions C08_sortfast_sorts.

Example C08_example :
  doBuiltinSort 10 (fun (s : unit) (a b : Z) => (s, Ok (a - b))) [3; 1; 2; 1; 5] tt = (([1; 1; 2; 3; 5], tt), Ok tt).
Proof. exact sort_example. Qed.

(** The 32-bit restriction is necessary: fn (a, b: ^int): int {return a^ - b^} turns the sorted [0, 2^32] into [2^32, 0]. *)
Theorem C08_wide_result_refuted :
  let closure (s : unit) (a b : Z) := (s, Ok (a - b)) in
  doBuiltinSort 5 closure [0; 4294967296] tt = (([4294967296; 0], tt), Ok tt).
Proof. exact sort_truncation_witness. Qed.
Print Assumptions C08_wide_result_refuted.

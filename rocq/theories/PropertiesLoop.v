(** C59: for-in loops visit what the collection had, once and in order. *)
From Coq Require Import ZArith Lia Bool List Permutation Sorted.
From Verif Require Import Base LoopModel LoopSpec LoopProofs LoopMore.
Import ListNotations.
Local Open Scope Z_scope.

(** Arrays, dynamic arrays and strings: the body runs for the indices 0, 1, ... below the length at the start, in this order, with the item as it is
    then, unless it breaks or returns. What is missing in full: an item that the body has deleted is an index error. *)
Theorem C59_sequence_partial : forall d mb s u b n e l fuel, denotes d u b n e -> check d = Ok tt -> does mb s -> keepsLen d b s ->
  Z.of_nat n <= INT_MAX -> (n < fuel)%nat -> forIn d mb fuel l e u = visits d b s 0 n u.
Proof. exact forIn_ok. Qed.
Print Assumptions C59_sequence_partial.

(** If the body leaves the collection alone it gets each item with its index. *)
Theorem C59_items : forall d mb s u b e l fuel, denotes d u b (length (mblk u b)) e -> check d = Ok tt -> litem d = true -> lptr d = false -> does mb s ->
  (forall i x v v' f, s i x v = Ok (v', f) -> mblk v' b = mblk v b) -> Z.of_nat (length (mblk u b)) <= INT_MAX -> (length (mblk u b) < fuel)%nat ->
  forIn d mb fuel l e u = forEach s (numbered 0 (mblk u b)) u.
Proof. exact forIn_items. Qed.
Print Assumptions C59_items.

(** If the body only appends, no item is missing: an index error is its own. *)
Theorem C59_append : forall d mb s u b n e l fuel, denotes d u b n e -> check d = Ok tt -> does mb s ->
  (forall i x v v' f, s i x v = Ok (v', f) -> (length (mblk v b) <= length (mblk v' b))%nat) -> Z.of_nat n <= INT_MAX -> (n < fuel)%nat ->
  forIn d mb fuel l e u = Err EIndex -> exists k x v, (k < n)%nat /\ s (Z.of_nat k) x v = Err EIndex.
Proof. exact forIn_grow. Qed.
Print Assumptions C59_append.

(** Maps: the body runs for the keys at the start, whatever it does to the map. What is missing in full: a key that it has deleted is added again. *)
Theorem C59_map_partial : forall d mb s u p o m l fuel, lcoll d = KMap -> holds u p (VMap o) -> o = Some m \/ o = None -> doesKey mb s ->
  (forall k x v v' f, s k x v = Ok (v', f) -> mblk v' (mnext u) = mblk v (mnext u)) ->
  Z.of_nat (length (mapKeys u o)) <= INT_MAX -> (length (mapKeys u o) < fuel)%nat ->
  exists u0, withKeys u u0 /\ mapRun d m s (mapKeys u o) u0 (forIn d mb fuel l (VRef p) u).
Proof. exact forIn_map. Qed.
Print Assumptions C59_map_partial.

(** If the body leaves the map alone it gets each entry. *)
Theorem C59_entries : forall d mb s u p m l fuel, lcoll d = KMap -> litem d = true -> lptr d = false -> holds u p (VMap (Some m)) -> NoDup (map fst (mmap u m)) -> doesKey mb s ->
  (forall k x v v' f, s k x v = Ok (v', f) -> mblk v' (mnext u) = mblk v (mnext u) /\ mmap v' m = mmap v m) ->
  Z.of_nat (length (mmap u m)) <= INT_MAX -> (length (mmap u m) < fuel)%nat ->
  exists u0, withKeys u u0 /\ forIn d mb fuel l (VRef p) u = forEach s (mmap u m) u0.
Proof. exact forIn_entries. Qed.
Print Assumptions C59_entries.

(** Even if the body assigns to the index, nothing outside the collection is read, although the index into a string is not checked. *)
Theorem C59_never_outside : forall d mb u b n e l fuel, denotes d u b n e -> check d = Ok tt -> tame d b mb -> forIn d mb fuel l e u <> UB.
Proof. exact forIn_safe. Qed.
Print Assumptions C59_never_outside.

(** Memory for the examples: variable 0 is a dynamic array, variable 1 a map, variable 2 a string, variable 3 a counter. *)
Definition u0 : mem := Mem (fun n => match n with 0 => VDyn (Some 0) | 1 => VMap (Some 1) | 2 => VStr (Some 2) | _ => VInt 0 end)%nat
  (fun b => match b with 0 => [VInt 7; VInt 8; VInt 9] | 2 => [VInt 104; VInt 105] | _ => [] end)%nat
  (fun m => match m with 1%nat => [(2, VInt 20); (5, VInt 50)] | _ => [] end) 3.
Definition l0 : vars := fun _ => VNull.
Definition setUser (u : mem) (n : nat) (v : value) : mem := Mem (fun c => if Nat.eqb c n then v else mvar u c) (mblk u) (mmap u) (mnext u).
(** Variable 3 := 10 * variable 3 + 100 * index + item. *)
Definition accum : stmt := fun i x u => match mvar u 3, x with VInt a, VInt z => Ok (setUser u 3 (VInt (10 * a + 100 * i + z)), FNext) | _, _ => UB end.
Definition lift (s : stmt) : body := fun i x u => match i with VInt k => let* (u, f) := s k x u in Ok (i, x, u, f) | _ => UB end.
Lemma lift_does s : does (lift s) s.
Proof. intros i x u. unfold lift. destruct (s i x u) as [[u' f]| |]; cbn [bind]; [now exists x|reflexivity|reflexivity]. Qed.
Lemma lift_doesKey s : doesKey (lift s) s.
Proof. intros i x u. unfold lift. destruct (s i x u) as [[u' f]| |]; cbn [bind]; [now exists (VInt i), x|reflexivity|reflexivity]. Qed.
Definition overArray := Loop KDyn false true false KInt (VInt 0).
Definition overMap := Loop KMap false true false KInt (VInt 0).
Definition overStr := Loop KStr true true false KInt (VInt 0).

Example C59_sequence_used : forIn overArray (lift accum) 10 l0 (VRef (PVar 0)) u0 = visits overArray 0 accum 0 3 u0.
Proof.
  apply C59_sequence_partial; [|reflexivity|apply lift_does|now left|vm_compute; discriminate|lia].
  eapply D_dyn with (o := Some 0%nat); [reflexivity|apply (H_var u0 0)|left; split; reflexivity].
Qed.
Example C59_items_used : forIn overStr (lift accum) 10 l0 (VRef (PVar 2)) u0 = forEach accum [(0, VInt 104); (1, VInt 105)] u0.
Proof.
  apply (C59_items overStr (lift accum) accum u0 2); try reflexivity; [|apply lift_does| |vm_compute; discriminate|cbn; lia].
  - eapply D_strptr with (o := Some 2%nat); [reflexivity|reflexivity|vm_compute; discriminate|apply (H_var u0 2)|left; split; reflexivity].
  - intros i x v v' f H. unfold accum in H. destruct (mvar v 3); try discriminate. destruct x; try discriminate. injection H as <- _. reflexivity.
Qed.
Example C59_entries_used : exists u1, withKeys u0 u1 /\ forIn overMap (lift accum) 10 l0 (VRef (PVar 1)) u0 = forEach accum [(2, VInt 20); (5, VInt 50)] u1.
Proof.
  apply (C59_entries overMap (lift accum) accum u0 (PVar 1) 1 l0 10); try reflexivity; [apply (H_var u0 1)| |apply lift_doesKey| |vm_compute; discriminate|cbn; lia].
  - cbn. repeat constructor; cbn; intuition lia.
  - intros i x v v' f H. unfold accum in H. destruct (mvar v 3); try discriminate. destruct x; try discriminate. injection H as <- _. split; reflexivity.
Qed.
Example C59_values : (exists u, forIn overArray (lift accum) 10 l0 (VRef (PVar 0)) u0 = Ok (u, FNext) /\ mvar u 3 = VInt (((0 + 7) * 10 + 108) * 10 + 209))
  /\ (exists u, forIn overMap (lift accum) 10 l0 (VRef (PVar 1)) u0 = Ok (u, FNext) /\ mvar u 3 = VInt ((200 + 20) * 10 + 550)).
Proof. split; eexists; (split; [reflexivity|reflexivity]). Qed.
(** The body of the safety theorem: index := index - 1 + z mod 3. *)
Definition jump (z : Z) : body := fun i x u => match i with VInt k => Ok (VInt (Z.min 5 (k - 1 + z mod 3)), x, u, FNext) | _ => UB end.
Example C59_never_outside_used : forall z fuel, forIn overStr (jump z) fuel l0 (VRef (PVar 2)) u0 <> UB.
Proof.
  intros z fuel. apply C59_never_outside with (b := 2%nat) (n := 2%nat); [|reflexivity|].
  - eapply D_strptr with (o := Some 2%nat); [reflexivity|reflexivity|vm_compute; discriminate|apply (H_var u0 2)|left; split; reflexivity].
  - intros i x u. split; [discriminate|]. intros i' x' u' f H. injection H as <- <- <- <-. split; [|right; lia].
    eexists. split; [reflexivity|]. apply Z.le_lt_trans with 5; [apply Z.le_min_l|reflexivity].
Qed.

(** Deleting an item of the array in the body (in place: DynModel) is an index error. *)
Definition deleteFirst : stmt := fun i x u => Ok (setBlk u 0 (tl (mblk u 0)), FNext).
Theorem C59_delete_refuted : exists d mb s u b n e l fuel, denotes d u b n e /\ check d = Ok tt /\ does mb s /\ (forall i x v, exists v', s i x v = Ok (v', FNext))
  /\ forIn d mb fuel l e u = Err EIndex.
Proof.
  exists overArray, (lift deleteFirst), deleteFirst, u0, 0%nat, 3%nat, (VRef (PVar 0)), l0, 10%nat.
  repeat split; [|apply lift_does|intros; eexists; reflexivity].
  eapply D_dyn with (o := Some 0%nat); [reflexivity|apply (H_var u0 0)|left; split; reflexivity].
Qed.
Print Assumptions C59_delete_refuted.

(** Deleting all keys of a map in the body leaves a map that is not empty: the loop adds the keys to come again. *)
Definition clearFirst : stmt := fun k x u => Ok ((if k =? 2 then setMap u 1 [] else u), FNext).
Theorem C59_map_delete_refuted : exists d mb s u p m l fuel u' , lcoll d = KMap /\ holds u p (VMap (Some m)) /\ doesKey mb s
  /\ (forall k x v v', s k x v = Ok (v', FNext) -> forall e, In e (mmap v' m) -> In e (mmap v m))
  /\ forIn d mb fuel l (VRef p) u = Ok (u', FNext) /\ In (5, VInt 0) (mmap u' m) /\ ~ In (5, VInt 0) (mmap u m).
Proof.
  exists overMap, (lift clearFirst), clearFirst, u0, (PVar 1), 1%nat, l0, 10%nat. eexists. split; [reflexivity|]. split; [apply (H_var u0 1)|].
  split; [apply lift_doesKey|]. split.
  - intros k x v v' H. unfold clearFirst in H. destruct (k =? 2); injection H as <-; [cbn; intros e []|auto].
  - split; [reflexivity|]. split; [now left|]. cbn. intros [H|[H|[]]]; discriminate.
Qed.
Print Assumptions C59_map_delete_refuted.

(** Assigning the largest integer to the index overflows in the loop. *)
Definition toMax : body := fun i x u => Ok (VInt INT_MAX, x, u, FNext).
Theorem C59_index_refuted : exists d mb u b n e l fuel, denotes d u b n e /\ check d = Ok tt /\ (forall i x v, exists z, mb i x v = Ok (VInt z, x, v, FNext) /\ INT_MIN <= z <= INT_MAX)
  /\ forIn d mb fuel l e u = UB.
Proof.
  exists overArray, toMax, u0, 0%nat, 3%nat, (VRef (PVar 0)), l0, 10%nat.
  repeat split.
  - eapply D_dyn with (o := Some 0%nat); [reflexivity|apply (H_var u0 0)|left; split; reflexivity].
  - intros i x v. exists INT_MAX. split; [reflexivity|]. vm_compute. split; discriminate.
Qed.
Print Assumptions C59_index_refuted.

(** C12-C14: dynamic arrays. *)
From Coq Require Import ZArith List.
From Verif Require Import Base BlkModel DynModel DynSpec DynProofs DynExtra.
Import ListNotations.
Local Open Scope Z_scope.

(** C12. A program that makes, assigns, appends to, inserts into, deletes from, slices, copies, reads, writes and converts
    dynamic arrays gives exactly the results of the same program on shared mutable lists: the outputs agree, run-time errors
    happen exactly when the specification says, and there is no undefined behaviour. Item sizes and the address of the
    static empty array are arbitrary. Two cases are excluded, see [plain_op] and the refutations below.
    The specification is told how the capacity of a new array depends on its length ([cap_for]) and which lengths can be
    allocated ([fits]). *)
Theorem C12_dynarray_is_shared_list :
  forall size emptyDims, 0 <= size <= INT_MAX -> 0 < emptyDims ->
  forall ops, plain size (cap_for size) (fits size) s_init ops ->
    match s_run size (cap_for size) (fits size) s_init ops with
    | Some (_, xs) => fmap snd (run size emptyDims (init emptyDims) ops) = Ok xs
    | None => exists e, run size emptyDims (init emptyDims) ops = Err e
    end.
Proof. exact run_refines. Qed.
Print Assumptions C12_dynarray_is_shared_list.

Example C12_case :
  let ops := [OMake 1 2; OSet 1 0 [5; 6]; OAppend 2 1 (STmp [7; 8]); OInsert 2 2 1 (SElem 2 0); OAppendArr 2 2 1;
              ODelete 2 2 0; OSlice 3 2 1 (Some (-1)); OToArr 3 6; OLen 2; OCap 2; OValid 4; OAppend 5 4 (STmp [1; 1]);
              OValid 4; OGet 2 1] in
  plain 2 (cap_for 2) (fits 2) s_init ops /\
  fmap snd (run 2 100 (init 100) ops) =
    Ok [RUnit; RUnit; RUnit; RUnit; RUnit; RUnit; RUnit; RItems [[0; 0]; [7; 8]; [5; 6]; [5; 6]; [0; 0]; [0; 0]]; RInt 7; RInt 18; RInt 0; RUnit; RInt 1; RItem [0; 0]].
Proof. split; [cbn; repeat (split; [try exact Logic.I; try reflexivity; try discriminate; repeat constructor|]); try exact Logic.I|]; vm_compute; reflexivity. Qed.

(** C12. Arrays up to about 2^31 / (2 * item size) items can be allocated, with room to double. *)
Theorem C12_capacity_doubles :
  forall size n, 0 <= n <= INT_MAX -> 2 * (n + 1) * size <= LIMIT ->
    fits size n = true /\ cap_for size n = 2 * (n + 1).
Proof. exact fits_small. Qed.
Print Assumptions C12_capacity_doubles.

(** C12, as first stated, fails in two cases. insert(a, 0, a[2]) within the capacity, with a structured item type, inserts
    the item that preceded a[2]: the operand is the address of a[2], read after the items have been shifted. *)
Theorem C12_insert_own_item_refuted :
  exists size ops, Forall (wf_op size) ops /\
    exists x y, x <> y /\ fmap snd (run size 4096 (init 4096) ops) = Ok [RUnit; RUnit; RItem x] /\
      match s_run size (cap_for size) (fits size) s_init ops with Some (_, l) => l = [RUnit; RUnit; RItem y] | None => False end.
Proof. exact insert_wrong_ex. Qed.
Print Assumptions C12_insert_own_item_refuted.

(** And slice(a, 0, -2147483648) is not an error: that end index is how the compiler passes a missing one. *)
Theorem C12_slice_sentinel_refuted :
  exists size ops xs, Forall (wf_op size) ops /\ fmap snd (run size 4096 (init 4096) ops) = Ok xs /\
    s_run size (cap_for size) (fits size) s_init ops = None.
Proof. exact slice_wrong_ex. Qed.
Print Assumptions C12_slice_sentinel_refuted.

(** C13. append(v, item): within the capacity the array is changed in place, together with all arrays sharing its storage and
    with no others; beyond the capacity (if memory suffices) the result is a new array and nothing else changes. *)
Theorem C13_append_item :
  forall size emptyDims, 0 <= size <= INT_MAX -> 0 < emptyDims ->
  forall st d v s x l c, reachable size (cap_for size) (fits size) emptyDims st -> wf_op size (OAppend d v s) ->
    item_given size st s = Ok x -> observe size st v = Ok l -> doBuiltinCap (st_mem st) (st_var st v) = Ok c ->
    (zlen l + 1 <= c ->
       exists st', step size emptyDims st (OAppend d v s) = Ok (st', RUnit) /\ changed_in_place size st st' d v (l ++ [x])) /\
    (c < zlen l + 1 ->
       forall st' y, step size emptyDims st (OAppend d v s) = Ok (st', y) -> made_new size st st' d (l ++ [x])).
Proof. exact append_item_c13. Qed.
Print Assumptions C13_append_item.

(** C13. append(v, array). *)
Theorem C13_append_array :
  forall size emptyDims, 0 <= size <= INT_MAX -> 0 < emptyDims ->
  forall st d v w l l2 c, reachable size (cap_for size) (fits size) emptyDims st ->
    observe size st w = Ok l2 -> observe size st v = Ok l -> doBuiltinCap (st_mem st) (st_var st v) = Ok c ->
    (0 < c -> zlen l + zlen l2 <= c ->
       exists st', step size emptyDims st (OAppendArr d v w) = Ok (st', RUnit) /\ changed_in_place size st st' d v (l ++ l2)) /\
    (c < zlen l + zlen l2 ->
       forall st' y, step size emptyDims st (OAppendArr d v w) = Ok (st', y) -> made_new size st st' d (l ++ l2)).
Proof. exact append_arr_c13. Qed.
Print Assumptions C13_append_array.

(** C13. insert(v, i, item). *)
Theorem C13_insert :
  forall size emptyDims, 0 <= size <= INT_MAX -> 0 < emptyDims ->
  forall st d v i s x l c, reachable size (cap_for size) (fits size) emptyDims st -> wf_op size (OInsert d v i s) ->
    match s with SElem w j => d_data (st_var st w) = d_data (st_var st v) -> zlen l + 1 <= c -> j <= i | STmp _ => True end ->
    item_given size st s = Ok x -> observe size st v = Ok l -> doBuiltinCap (st_mem st) (st_var st v) = Ok c ->
    0 <= i <= zlen l ->
    (zlen l + 1 <= c ->
       exists st', step size emptyDims st (OInsert d v i s) = Ok (st', RUnit) /\ changed_in_place size st st' d v (insert_at i x l)) /\
    (c < zlen l + 1 ->
       forall st' y, step size emptyDims st (OInsert d v i s) = Ok (st', y) -> made_new size st st' d (insert_at i x l)).
Proof. exact insert_c13. Qed.
Print Assumptions C13_insert.

(** C13. The length never exceeds the capacity, the capacity lies within the array's own memory block, and different arrays
    have disjoint storage. *)
Theorem C13_storage :
  forall size emptyDims, 0 <= size <= INT_MAX -> 0 < emptyDims ->
  forall st v w l c, reachable size (cap_for size) (fits size) emptyDims st ->
    observe size st v = Ok l -> doBuiltinCap (st_mem st) (st_var st v) = Ok c ->
    zlen l <= c /\
    (d_data (st_var st v) <> 0 -> valid (st_mem st) (d_data (st_var st v) - 16) (16 + c * size) = true /\
       (forall cw, d_data (st_var st w) <> 0 -> d_data (st_var st w) <> d_data (st_var st v) ->
         doBuiltinCap (st_mem st) (st_var st w) = Ok cw ->
         d_data (st_var st v) + c * size <= d_data (st_var st w) - 16 \/ d_data (st_var st w) + cw * size <= d_data (st_var st v) - 16)).
Proof. exact storage_c13. Qed.
Print Assumptions C13_storage.

(** A reachable state with an array of length 1 and capacity 4, shared by two variables: appending through one is seen
    through the other. *)
Example C13_case :
  let ops := [OFromArr 1 [[9]]; OAssign 2 1; OAppend 3 1 (STmp [8]); OGet 2 1; OCap 2] in
  plain 1 (cap_for 1) (fits 1) s_init ops /\
  fmap snd (run 1 100 (init 100) ops) = Ok [RUnit; RUnit; RUnit; RItem [8]; RInt 4].
Proof. split; [cbn; repeat (split; [try exact Logic.I; try reflexivity; try discriminate; repeat constructor|]); try exact Logic.I|]; vm_compute; reflexivity. Qed.

(** C14 for dynamic arrays: any index either addresses that item, inside the array's memory, or is an error. *)
Theorem C14_dynarray_index :
  forall size emptyDims, 0 <= size <= INT_MAX -> 0 < emptyDims ->
  forall st v i l, reachable size (cap_for size) (fits size) emptyDims st -> observe size st v = Ok l ->
    (0 <= i < zlen l -> exists a, doGetDynArrayPtr (st_mem st) (st_var st v) i = Ok a /\ a = d_data (st_var st v) + i * size /\
       valid (st_mem st) a size = true /\ loadItem size (st_mem st) a = Ok (nth (Z.to_nat i) l [])) /\
    (~ 0 <= i < zlen l -> exists e, doGetDynArrayPtr (st_mem st) (st_var st v) i = Err e).
Proof. exact index_c14. Qed.
Print Assumptions C14_dynarray_index.

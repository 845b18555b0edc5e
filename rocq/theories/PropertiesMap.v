(** C09-C11: maps. *)
From Coq Require Import ZArith List Sorted.
From Verif Require Import Base CmpModel CmpSpec MapModel MapSpec MapExtra MapKeys.
Import ListNotations.
Local Open Scope Z_scope.

(** C09. Any sequence of operations on a map, started from the null map, gives exactly the results of the same operations on
    a finite map, whatever rand() returns (it only shapes the tree), for any key order the comparison decides. In
    particular no operation runs into undefined behaviour, and every search terminates within the stated number of steps. *)
Theorem C09_map_is_finite_map :
  forall (K V : Type) (v0 : V) cmp ord P, total_order ord P -> decides ord P cmp ->
  forall ops fuel (h : heap K V), Forall (op_keys P) ops -> 0 < next h -> (fuel_for (length ops) <= fuel)%nat ->
    fmap snd (run v0 cmp fuel h 0 ops) = fmap snd (s_run v0 ord None ops).
Proof. exact run_refines. Qed.
Print Assumptions C09_map_is_finite_map.

(** C09. The same for keys of any comparable type compared by the run-time comparison of that type: integers within
    (-2^62, 2^62), finite reals, strings, and arrays, structures and dynamic arrays of those. *)
Theorem C09_map_of_comparable_keys :
  forall tt m ty (V : Type) (v0 : V) ks ops h, Forall (usable tt m ty) ks ->
    Forall (op_keys (fun k => In k ks)) ops -> 0 < next h ->
    exists n, forall cfuel w fuel, (n <= cfuel)%nat -> (fuel_for (length ops) <= fuel)%nat ->
      fmap snd (run v0 (kcmp cfuel w tt m ty) fuel h 0 ops) = fmap snd (s_run v0 kord None ops).
Proof. exact map_of_program. Qed.
Print Assumptions C09_map_of_comparable_keys.

(** The finite map used as the specification has the usual laws. *)
Theorem C09_finite_map_laws :
  forall (K V : Type) (ord : K -> K -> comparison) P, total_order ord P ->
  forall (l : list (K * V)) k k' v, P k -> P k' -> Forall (fun e => P (fst e)) l ->
  (ord k' k = Eq -> s_get ord (s_set ord l k v) k' = Some v) /\
  (ord k' k <> Eq -> s_get ord (s_set ord l k v) k' = s_get ord l k') /\
  (ord k' k = Eq -> s_get ord (s_del ord l k) k' = None) /\
  (ord k' k <> Eq -> s_get ord (s_del ord l k) k' = s_get ord l k') /\
  (StronglySorted (fun x y => ord x y = Lt) (map fst l) ->
     length (s_set ord l k v) = (match s_get ord l k with Some _ => length l | None => S (length l) end)) /\
  (StronglySorted (fun x y => ord x y = Lt) (map fst l) ->
     length l = (match s_get ord l k with Some _ => S (length (s_del ord l k)) | None => length (s_del ord l k) end)).
Proof. exact spec_laws. Qed.
Print Assumptions C09_finite_map_laws.

(** C09. A pointer to an item (&m[k]) keeps pointing to the item of k, with the value last stored through it, during any
    further operations that do not assign or delete m[k], although these rotate, insert and remove tree nodes. *)
Theorem C09_item_pointer_stable :
  forall (K V : Type) (v0 : V) cmp ord P, total_order ord P -> decides ord P cmp ->
  forall pre ops fuel (h : heap K V) h1 root1 xs1 k r h2 root2 p w h3 h4 root4 xs4,
  Forall (op_keys P) pre -> P k -> Forall (op_keys P) ops -> 0 < next h ->
  (fuel_for (length pre + 1 + length ops) <= fuel)%nat ->
  run v0 cmp fuel h 0 pre = Ok (h1, root1, xs1) ->
  doGetMapPtr v0 cmp fuel h1 root1 k r = Ok (h2, root2, p) ->
  storeItem h2 p w = Ok h3 ->
  Forall (untouched ord k) ops ->
  run v0 cmp fuel h3 root2 ops = Ok (h4, root4, xs4) ->
  loadItem h4 p = Ok w.
Proof. exact pointer_stable. Qed.
Print Assumptions C09_item_pointer_stable.

Example C09_example :
  total_order Z.compare iok /\ decides Z.compare iok icmp /\ Forall (op_keys iok) demo /\
  fmap snd (run 0 icmp 200 h0 0 demo) =
    Ok [RUnit; RUnit; RUnit; RVal 20; RVal 0; RInt 4; RKeys [2; 5; 7; 8]; RUnit; RBool false; RBool true; RKeys [2; 7; 8]; RVal 80].
Proof. exact (conj int_order (conj int_decides (conj demo_ok demo_run))). Qed.

(** C09 fails for int keys that are 2^63 or more apart: validkey() denies a key that was stored. *)
Theorem C09_far_int_keys_refuted :
  exists ops : list (op Z Z),
    (exists x, ops = x ++ [OValidKey INT64_MIN] /\ In (OSet INT64_MIN 1 5) x /\ ~ In (ODelete INT64_MIN) x) /\
    fmap snd (run 0 (isub Wrapping) 100 h0 0 ops) = Ok [RUnit; RUnit; RVal 2; RBool false] /\
    fmap snd (s_run 0 Z.compare None ops) = Ok [RUnit; RUnit; RVal 2; RBool true] /\
    run 0 (isub Strict) 100 h0 0 ops = UB.
Proof. exact far_witness. Qed.
Print Assumptions C09_far_int_keys_refuted.

(** C10. After any operations, keys() is strictly increasing, has len() elements, and lists exactly the valid keys. *)
Theorem C10_keys_sorted_and_complete :
  forall (K V : Type) (v0 : V) cmp ord P, total_order ord P -> decides ord P cmp ->
  forall ops fuel (h : heap K V) h' root' xs, Forall (op_keys P) ops -> 0 < next h ->
  (fuel_for (length ops) <= fuel)%nat ->
  run v0 cmp fuel h 0 ops = Ok (h', root', xs) ->
  exists l, doBuiltinKeys fuel h' root' = Ok l /\
    StronglySorted (fun x y => ord x y = Lt) l /\
    mapLen h' root' = Ok (Z.of_nat (length l)) /\
    (forall k, P k -> exists h'' b, doBuiltinValidKey cmp fuel h' root' k = Ok (h'', root', b) /\
       (b = true <-> Exists (fun k' => ord k k' = Eq) l)).
Proof. exact keys_complete. Qed.
Print Assumptions C10_keys_sorted_and_complete.

Example C10_example :
  match run 0 icmp 200 h0 0 demo with Ok (h', root', _) => doBuiltinKeys 200 h' root' | _ => UB end = Ok [2; 7; 8].
Proof. exact demo_keys. Qed.

(** C11. copy() of a map gives an equal map that shares nothing with the original: any operations on the two, interleaved in
    any order, give the results of operations on two separate finite maps with the contents at the time of copying. *)
Theorem C11_copy_is_independent :
  forall (K V : Type) (v0 : V) cmp ord P, total_order ord P -> decides ord P cmp ->
  forall pre ops fuel (h : heap K V) h1 root1 xs s,
  Forall (op_keys P) pre -> Forall (fun o => op_keys P (snd o)) ops -> 0 < next h ->
  (fuel_for (2 * length pre + length ops) <= fuel)%nat ->
  run v0 cmp fuel h 0 pre = Ok (h1, root1, xs) -> s_run v0 ord None pre = Ok (s, xs) ->
  exists h2 root2, doBuiltinCopyMap fuel h1 root1 = Ok (h2, root2) /\
    run2 v0 cmp fuel h2 root1 root2 ops = s_run2 v0 ord s s ops.
Proof. exact copy_independent. Qed.
Print Assumptions C11_copy_is_independent.

Example C11_example :
  (exists s, fmap fst (s_run 0 Z.compare None demo) = Ok s /\ s = Some [(2, 20); (7, 0); (8, 80)]) /\
  match run 0 icmp 200 h0 0 demo with
  | Ok (h1, root, _) => match doBuiltinCopyMap 200 h1 root with
      | Ok (h2, root2) => run2 0 icmp 200 h2 root root2 demo2
      | _ => UB end
  | _ => UB end = Ok [RUnit; RUnit; RKeys [2; 8]; RVal 71; RBool false; RInt 3; RInt 2].
Proof. exact (conj (ex_intro _ _ (conj (f_equal (fmap fst) demo_spec) eq_refl)) demo_copy). Qed.

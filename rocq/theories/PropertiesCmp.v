(** C06: comparison of values of every comparable type is a total order that agrees between compile time and run time. *)
From Coq Require Import ZArith List.
From Coq.Floats Require Import SpecFloat.
From Verif Require Import Base NumModel NumSpec MemModel CmpModel CmpSpec CmpProofs CmpOrder.
Import ListNotations.
Local Open Scope Z_scope.

(** For any two values of the same comparable type, of any nesting, the run-time and the compile-time comparison return
    the same number, and its sign is the lexicographic order of the contents, unless C subtraction of two corresponding
    integers overflows or of two corresponding reals is not a number ([close]). *)
Theorem C06_compare_is_order :
  forall tt m ty a b va vb,
    reads tt m ty a va -> reads tt m ty b vb -> close va vb ->
    exists n d c, vcmp va vb = Some c /\ sign_is d c /\
      forall fuel w, (n <= fuel)%nat ->
        doCompare fuel w tt m a b ty = Ok d /\ constCompare fuel w tt m a b ty = Ok d.
Proof. exact compare_order. Qed.
Print Assumptions C06_compare_is_order.

(** Integers below 2^62 in magnitude and finite reals are always within that condition. *)
Theorem C06_moderate_values_comparable :
  forall a b, moderate a -> moderate b -> close a b.
Proof. exact moderate_close. Qed.
Print Assumptions C06_moderate_values_comparable.

(** The order is antisymmetric, transitive, compatible with equality, and equality is equality of contents. *)
Theorem C06_order_laws :
  (forall a b, vcmp b a = option_map CompOpp (vcmp a b)) /\
  (forall a b c, vcmp a b = Some Lt -> vcmp b c = Some Lt -> vcmp a c = Some Lt) /\
  (forall a b c, vcmp a b = Some Eq -> vcmp a c = vcmp b c) /\
  (forall tt m ty a b va vb, reads tt m ty a va -> reads tt m ty b vb -> (vcmp va vb = Some Eq <-> same va vb)).
Proof. exact order_laws. Qed.
Print Assumptions C06_order_laws.

(** The six relational operators on strings, arrays, dynamic arrays and structures follow that order. *)
Theorem C06_relational_operators :
  forall tt m ty a b va vb o r c,
    match t_kind (tt ty) with KStr | KArray | KDynArray | KStruct => True | _ => False end ->
    reads tt m ty a va -> reads tt m ty b vb -> close va vb ->
    vcmp va vb = Some c -> rel_cmp o c = Some r ->
    exists n, forall fuel w, (n <= fuel)%nat -> doRelational fuel w tt m o ty a b = Ok (b2z r).
Proof. exact relational_order. Qed.
Print Assumptions C06_relational_operators.

Example C06_example :
  let m := wmem [(100, 5); (200, 7)] in
  reads wtt m 2 100 (VSeq [VInt 5]) /\ reads wtt m 2 200 (VSeq [VInt 7]) /\
  moderate (VSeq [VInt 5]) /\ doCompare 2 Strict wtt m 100 200 2 = Ok (-2).
Proof. exact cmp_example. Qed.

(** Outside the condition the claim is false. (1) {INT64_MIN} against {1}: undefined behaviour; with wrapping arithmetic the
    smaller one compares as greater. *)
Theorem C06_int_overflow_refuted :
  let m := wmem [(100, INT64_MIN); (200, 1)] in
  doCompare 3 Strict wtt m 100 200 2 = UB /\
  (exists d, doCompare 3 Wrapping wtt m 100 200 2 = Ok d /\ d > 0) /\
  reads wtt m 2 100 (VSeq [VInt INT64_MIN]) /\ reads wtt m 2 200 (VSeq [VInt 1]).
Proof. exact int_overflow_witness. Qed.
Print Assumptions C06_int_overflow_refuted.

(** (2) A NaN compares less than everything, everything compares less than it, and it is less than itself. *)
Theorem C06_nan_refuted :
  let m := wmem [(100, realSlot S754_nan); (200, 0)] in
  forall w, doCompare 3 w wtt m 100 200 4 = Ok (-1) /\ doCompare 3 w wtt m 200 100 4 = Ok (-1) /\
            doCompare 3 w wtt m 100 100 4 = Ok (-1).
Proof. exact nan_witness. Qed.
Print Assumptions C06_nan_refuted.

(** (3) Weak pointers: null < &global < heap < null. *)
Theorem C06_weak_pointer_cycle_refuted :
  let m := wmem [(100, 0); (200, 93824992215040); (300, s64 (two63 + two32 + 64))] in
  forall w,
    (exists d, doCompare 3 w wtt m 100 200 6 = Ok d /\ d < 0) /\
    (exists d, doCompare 3 w wtt m 200 300 6 = Ok d /\ d < 0) /\
    (exists d, doCompare 3 w wtt m 300 100 6 = Ok d /\ d < 0).
Proof. exact weak_cycle_witness. Qed.
Print Assumptions C06_weak_pointer_cycle_refuted.

(** (4) A structure whose dynamic array contains itself: the comparison never returns. *)
Theorem C06_cyclic_compare_refuted :
  forall w fuel, doCompare fuel w wtt cyc 100 300 7 = Err EFuel.
Proof. exact cyclic_witness. Qed.
Print Assumptions C06_cyclic_compare_refuted.

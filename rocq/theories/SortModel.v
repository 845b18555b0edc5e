(** Sorting: qsortEx and the two sort() builtins.

    The array is a list of items; item k is at address first0 + k * itemSize. An item is whatever itemSize bytes hold.
    The comparison function is a parameter: it may keep state ([S]: everything a user-written closure can change
    except the array being sorted) and may fail (a run-time error inside the closure leaves by longjmp, the array stays as
    it is at that moment). Simplified: a comparison function that itself modifies the array is not modelled. *)
From Coq Require Import ZArith Lia Bool List.
From Verif Require Import Base.
Import ListNotations.
Local Open Scope Z_scope.

Section Sort.
Variables A S : Type.
Variable cmp : S -> A -> A -> S * outcome Z.

Definition state : Type := (list A * S)%type.
(** A computation returns the state also when it stops with an error. *)
Definition M (X : Type) : Type := state -> state * outcome X.
Definition ret {X} (x : X) : M X := fun s => (s, Ok x).
Definition fail {X} (o : outcome X) : M X := fun s => (s, o).
Definition mbind {X Y} (c : M X) (f : X -> M Y) : M Y := fun s =>
  let (s', r) := c s in
  match r with Ok x => f x s' | Err e => (s', Err e) | UB => (s', UB) end.

Definition at_ (l : list A) (k : Z) : option A := if k <? 0 then None else nth_error l (Z.to_nat k).
Fixpoint set_nth (n : nat) (x : A) (l : list A) : list A :=
  match l, n with
  | [], _ => []
  | _ :: r, O => x :: r
  | y :: r, Datatypes.S n' => y :: set_nth n' x r
  end.

(** src/umka_vm.c:849-854, qsortSwap. Three memcpy through temp; swapping an item with itself (which ISO C leaves undefined
    for memcpy) is taken as a no-op. An access outside the array is undefined. *)
Definition qsortSwap (i j : Z) : M unit := fun '(l, s) =>
  match at_ l i, at_ l j with
  | Some x, Some y => ((set_nth (Z.to_nat j) x (set_nth (Z.to_nat i) y l), s), Ok tt)
  | _, _ => ((l, s), UB)
  end.

(** compare(i, pivot, context). *)
Definition compare (i j : Z) : M Z := fun '(l, s) =>
  match at_ l i, at_ l j with
  | Some x, Some y => let (s', r) := cmp s x y in ((l, s'), r)
  | _, _ => ((l, s), UB)
  end.

(** src/umka_vm.c:866-867: while (compare(i, pivot) <= 0 && i < last) i += itemSize; *)
Fixpoint scanUp (fuel : nat) (i pivot last : Z) : M Z :=
  match fuel with
  | O => fail (Err EFuel)
  | Datatypes.S f => mbind (compare i pivot) (fun c => if (c <=? 0) && (i <? last) then scanUp f (i + 1) pivot last else ret i)
  end.

(** src/umka_vm.c:869-870: while (compare(j, pivot) > 0 && j > first) j -= itemSize; *)
Fixpoint scanDown (fuel : nat) (j pivot first : Z) : M Z :=
  match fuel with
  | O => fail (Err EFuel)
  | Datatypes.S f => mbind (compare j pivot) (fun c => if (0 <? c) && (first <? j) then scanDown f (j - 1) pivot first else ret j)
  end.

(** src/umka_vm.c:864-874, the loop of qsortPartition; returns the final j. *)
Fixpoint partitionLoop (fuel : nat) (i j first last : Z) : M Z :=
  match fuel with
  | O => fail (Err EFuel)
  | Datatypes.S f =>
      if i <? j then
        mbind (scanUp fuel i first last) (fun i' =>
        mbind (scanDown fuel j first first) (fun j' =>
        mbind (if i' <? j' then qsortSwap i' j' else ret tt) (fun _ =>
        partitionLoop f i' j' first last)))
      else ret j
  end.

(** src/umka_vm.c:857-879, qsortPartition (pivot = first). *)
Definition qsortPartition (fuel : nat) (first last : Z) : M Z :=
  mbind (partitionLoop fuel first last first last) (fun j =>
  mbind (qsortSwap first j) (fun _ => ret j)).

(** src/umka_vm.c:882-891, qsortEx. *)
Fixpoint qsortEx (fuel : nat) (pfuel : nat) (first last : Z) : M unit :=
  match fuel with
  | O => fail (Err EFuel)
  | Datatypes.S f =>
      if last <=? first then ret tt
      else
        mbind (qsortPartition pfuel first last) (fun p =>
        mbind (qsortEx f pfuel first (p - 1)) (fun _ =>
        qsortEx f pfuel (p + 1) last))
  end.

(** src/umka_vm.c:2773-2784 and 2829-2836: sort the whole array if it is not empty. *)
Definition sortArray (fuel : nat) (l : list A) (s : S) : state * outcome unit :=
  if 0 <? Z.of_nat (length l) then qsortEx fuel fuel 0 (Z.of_nat (length l) - 1) (l, s) else ((l, s), Ok tt).
End Sort.

Arguments state {A S}.
Arguments at_ {A} l k.
Arguments set_nth {A} n x l.

(** src/umka_vm.c:2728-2758, qsortCompare: the closure's int result (64 bits) is returned as a C int, so only its low
    32 bits, taken as signed, are kept. *)
Definition qsortCompare {A S} (closure : S -> A -> A -> S * outcome Z) (s : S) (a b : A) : S * outcome Z :=
  let (s', r) := closure s a b in (s', fmap s32 r).

(** src/umka_vm.c:2797-2813, qsortFastCompare; [diff] is doCompare on the selected field (or the whole item). *)
Definition qsortFastCompare {A S} (diff : A -> A -> outcome Z) (ascending : bool) (s : S) (a b : A) : S * outcome Z :=
  let sign := if ascending then 1 else -1 in
  (s, fmap (fun d => if d =? 0 then 0 else if 0 <? d then sign else - sign) (diff a b)).

(** src/umka_vm.c:2761-2785, doBuiltinSort. Null checks are elsewhere; the array is not null here. *)
Definition doBuiltinSort {A S} (fuel : nat) (closure : S -> A -> A -> S * outcome Z) (l : list A) (s : S) :=
  sortArray A S (qsortCompare closure) fuel l s.

(** src/umka_vm.c:2816-2837, doBuiltinSortFast. *)
Definition doBuiltinSortFast {A} (fuel : nat) (diff : A -> A -> outcome Z) (ascending : bool) (l : list A) :=
  sortArray A unit (qsortFastCompare diff ascending) fuel l tt.

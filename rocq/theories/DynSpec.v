(** What dynamic array operations should do: arrays are shared mutable lists with a capacity. *)
From Coq Require Import ZArith Lia Bool List.
From Verif Require Import Base DynModel.
Import ListNotations.
Local Open Scope Z_scope.

Notation item := (list Z).
Record sarr : Type := MkArr { s_items : list item; s_cap : Z }.
(** The arrays created so far, and for each variable the array it refers to (None: null). Array 0 is an array that is always
    empty and has no capacity: a null array becomes a reference to it when it is appended to, inserted into or sliced. *)
Record sstate : Type := MkS { s_store : list sarr; s_var : Z -> option nat }.

Definition arr_of (st : sstate) (r : nat) : sarr := nth r (s_store st) (MkArr [] 0).
Definition contents (st : sstate) (v : Z) : list item :=
  match s_var st v with Some r => s_items (arr_of st r) | None => [] end.
Definition capacity (st : sstate) (v : Z) : Z :=
  match s_var st v with Some r => s_cap (arr_of st r) | None => 0 end.

Fixpoint update {A} (n : nat) (x : A) (l : list A) : list A :=
  match l, n with
  | [], _ => []
  | _ :: r, O => x :: r
  | y :: r, S n' => y :: update n' x r
  end.
Definition refer (f : Z -> option nat) (v : Z) (x : option nat) : Z -> option nat := fun y => if y =? v then x else f y.

Definition touch (st : sstate) (v : Z) : sstate :=
  match s_var st v with Some _ => st | None => MkS (s_store st) (refer (s_var st) v (Some 0%nat)) end.

(** d refers to the array that v refers to, whose contents become l. *)
Definition in_place (st : sstate) (d v : Z) (l : list item) : sstate :=
  match s_var st v with
  | Some r => MkS (update r (MkArr l (s_cap (arr_of st r))) (s_store st)) (refer (s_var st) d (Some r))
  | None => MkS (s_store st) (refer (s_var st) d None)
  end.

Definition insert_at {A} (i : Z) (x : A) (l : list A) : list A := firstn (Z.to_nat i) l ++ x :: skipn (Z.to_nat i) l.
Definition delete_at {A} (i : Z) (l : list A) : list A := firstn (Z.to_nat i) l ++ skipn (S (Z.to_nat i)) l.
Definition sublist {A} (s e : Z) (l : list A) : list A := firstn (Z.to_nat (e - s)) (skipn (Z.to_nat s) l).
Definition set_at {A} (i : Z) (x : A) (l : list A) : list A := update (Z.to_nat i) x l.
Definition zlen {A} (l : list A) : Z := Z.of_nat (length l).
Definition elem (l : list item) (i : Z) : option item := if i <? 0 then None else nth_error l (Z.to_nat i).

Definition option_eqb (x y : option nat) : bool :=
  match x, y with Some a, Some b => Nat.eqb a b | None, None => true | _, _ => false end.

Section Spec.
Variable size : Z.
Variable cap_for : Z -> Z.      (* capacity given to a new array of a given length *)
Variable fits : Z -> bool.      (* can an array of that length be allocated? *)

Definition zero_item : item := repeat 0 (Z.to_nat size).

(** d refers to a new array with contents l. *)
Definition fresh (st : sstate) (d : Z) (l : list item) : option sstate :=
  if fits (zlen l)
  then Some (MkS (s_store st ++ [MkArr l (cap_for (zlen l))]) (refer (s_var st) d (Some (length (s_store st)))))
  else None.

(** In place if the new contents fit the capacity. *)
Definition grow (st : sstate) (d v : Z) (l : list item) : option sstate :=
  if zlen l <=? capacity st v then Some (in_place st d v l) else fresh st d l.

Definition src_val (st : sstate) (s : src) : option item :=
  match s with STmp b => Some b | SElem v i => elem (contents st v) i end.

Definition unit_out (st : option sstate) : option (sstate * out) :=
  match st with Some st => Some (st, RUnit) | None => None end.

(** None is a run-time error. *)
Definition s_step (st : sstate) (o : op) : option (sstate * out) :=
  match o with
  | OMake d n => if (0 <=? n) && fits n then unit_out (fresh st d (repeat zero_item (Z.to_nat n))) else None
  | OFromArr d items => unit_out (fresh st d items)
  | OAssign d v => Some (MkS (s_store st) (refer (s_var st) d (s_var st v)), RUnit)
  | OAppend d v s =>
      match src_val st s with Some x => unit_out (grow (touch st v) d v (contents st v ++ [x])) | None => None end
  | OAppendArr d v w => unit_out (grow (touch (touch st v) w) d v (contents st v ++ contents st w))
  | OInsert d v i s =>
      match src_val st s with
      | Some x => if (0 <=? i) && (i <=? zlen (contents st v)) then unit_out (grow (touch st v) d v (insert_at i x (contents st v))) else None
      | None => None
      end
  | ODelete d v i =>
      if (0 <=? i) && (i <? zlen (contents st v)) then Some (in_place st d v (delete_at i (contents st v)), RUnit) else None
  | OSlice d v i e =>
      let len := zlen (contents st v) in
      let e := match e with None => len | Some e => if e <? 0 then e + len else e end in
      if (0 <=? i) && (i <=? e) && (e <=? len) then unit_out (fresh (touch st v) d (sublist i e (contents st v))) else None
  | OCopy d v =>
      match s_var st v with
      | None => Some (MkS (s_store st) (refer (s_var st) d None), RUnit)
      | Some _ => unit_out (fresh st d (contents st v))
      end
  | OLen v => Some (st, RInt (zlen (contents st v)))
  | OCap v => Some (st, RInt (capacity st v))
  | OValid v => Some (st, RInt (match s_var st v with Some _ => 1 | None => 0 end))
  | OGet v i => match elem (contents st v) i with Some x => Some (st, RItem x) | None => None end
  | OSet v i b =>
      if (0 <=? i) && (i <? zlen (contents st v)) then Some (MkS (s_store (in_place st v v (set_at i b (contents st v)))) (s_var st), RUnit)
      else None
  | OToArr v n =>
      if zlen (contents st v) <=? n
      then Some (st, RItems (contents st v ++ repeat zero_item (Z.to_nat n - length (contents st v))))
      else None
  end.

Fixpoint s_run (st : sstate) (ops : list op) : option (sstate * list out) :=
  match ops with
  | [] => Some (st, [])
  | o :: r =>
      match s_step st o with
      | Some (st, x) => match s_run st r with Some (st, xs) => Some (st, x :: xs) | None => None end
      | None => None
      end
  end.

Definition s_init : sstate := MkS [MkArr [] 0] (fun _ => None).

(** Operands have the right size. *)
Definition sized (b : item) : Prop := zlen b = size.
Definition wf_src (s : src) : Prop := match s with STmp b => sized b | SElem _ _ => True end.
Definition wf_op (o : op) : Prop :=
  match o with
  | OFromArr _ items => Forall sized items
  | OAppend _ _ s | OInsert _ _ _ s => wf_src s
  | OSet _ _ b => sized b
  | OToArr _ n => 0 <= n
  | _ => True
  end.

(** The two cases in which the code departs from the specification: inserting in place an item taken by reference from a
    later position of the same array, and a slice whose end is written as -2^31. *)
Definition plain_op (st : sstate) (o : op) : Prop :=
  match o with
  | OInsert _ v i (SElem w j) =>
      s_var st v = s_var st w -> zlen (contents st v) + 1 <= capacity st v -> j <= i
  | OSlice _ _ _ (Some e) => e <> INT_MIN
  | _ => True
  end.
Fixpoint plain (st : sstate) (ops : list op) : Prop :=
  match ops with
  | [] => True
  | o :: r => wf_op o /\ plain_op st o /\ match s_step st o with Some (st', _) => plain st' r | None => True end
  end.

(** States of the model reached by a program that avoids the two cases. *)
Definition reachable (emptyDims : Z) (st : state) : Prop :=
  exists ops xs, plain s_init ops /\ run size emptyDims (init emptyDims) ops = Ok (st, xs).
End Spec.

(** What a program sees of an array: len() and the items. *)
Definition observe (size : Z) (st : state) (v : Z) : outcome (list item) :=
  let* n := doBuiltinLen (st_mem st) (st_var st v) in loadItems size (Z.to_nat n) (st_mem st) (d_data (st_var st v)).
(** The item operand of append() and insert(). *)
Definition item_given (size : Z) (st : state) (s : src) : outcome item :=
  match s with
  | STmp b => Ok b
  | SElem w j => let* l := observe size st w in match elem l j with Some x => Ok x | None => Err EIndex end
  end.
(** d now shares storage with the arrays v shared storage with, its contents are l, and all of those have changed too; no
    other array has. *)
Definition changed_in_place (size : Z) (st st' : state) (d v : Z) (l : list item) : Prop :=
  observe size st' d = Ok l /\
  forall w, w <> d ->
    (d_data (st_var st' w) = d_data (st_var st' d) <-> d_data (st_var st w) = d_data (st_var st v)) /\
    observe size st' w = if d_data (st_var st w) =? d_data (st_var st v) then Ok l else observe size st w.
(** d is a new array with contents l, sharing storage with no other, and no other array has changed. *)
Definition made_new (size : Z) (st st' : state) (d : Z) (l : list item) : Prop :=
  observe size st' d = Ok l /\
  forall w, w <> d -> d_data (st_var st' w) <> d_data (st_var st' d) /\ observe size st' w = observe size st w.

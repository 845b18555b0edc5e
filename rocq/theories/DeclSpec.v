(** Specification of enumerations, constant groups and expression lists, in terms of mathematical values. *)
From Coq Require Import ZArith Lia Bool List String.
From Verif Require Import Base NumModel NumSpec DeclModel.
Import ListNotations.
Local Open Scope Z_scope.

(** The values of the items of an enumeration with the given base type, after a predecessor [prev]: an explicit value is
    the value of its expression, any other value is one more than its predecessor, and each is in range. *)
Inductive enumVals (base : kind) : Z -> list eitem -> list Z -> Prop :=
| ev_nil : forall prev, enumVals base prev [] []
| ev_auto : forall prev n r vs, in_range base (prev + 1) -> enumVals base (prev + 1) r vs ->
    enumVals base prev ((n, None) :: r) ((prev + 1) :: vs)
| ev_expl : forall prev n k v r vs, in_range k (denote k v) -> in_range base (denote k v) -> enumVals base (denote k v) r vs ->
    enumVals base prev ((n, Some (k, v)) :: r) (denote k v :: vs).

(** A correct enumeration: values as above starting from 0, names and values unique; the constant "zero" is there if no
    other has the value 0 (and then no other may have that name). *)
Definition enumOk (base : kind) (its : list eitem) (cs : list (string * Z)) : Prop :=
  exists vs, enumVals base (-1) its vs /\ NoDup (map fst its) /\ NoDup vs /\
    ((In 0 vs /\ cs = combine (map fst its) vs) \/
     (~ In 0 vs /\ ~ In "zero"%string (map fst its) /\ cs = combine (map fst its) vs ++ [("zero"%string, 0)])).

(** The values [vs] of a group of constants, each with its type, after a predecessor [prev]. *)
Inductive constVals : option (ctype * Z) -> list (option (ctype * Z)) -> list (ctype * Z) -> Prop :=
| cv_nil : forall prev, constVals prev [] []
| cv_auto : forall t p r vs, typeInteger t = true -> in_range (ckind t) (p + 1) -> constVals (Some (t, p + 1)) r vs ->
    constVals (Some (t, p)) (None :: r) ((t, p + 1) :: vs)
| cv_expl : forall prev t v r vs, constTypeOk (ckind t) = true -> constVals (Some (t, denote (ckind t) v)) r vs ->
    constVals prev (Some (t, v) :: r) ((t, denote (ckind t) v) :: vs).

(** Where an automatic value would be 2^63. *)
Definition enumEdge (base : kind) (its : list eitem) : Prop :=
  exists l n r vs, its = l ++ (n, None) :: r /\ enumVals base (-1) l vs /\ last vs (-1) = 9223372036854775807.
Definition constEdge (es : list (option (ctype * Z))) : Prop :=
  exists l r vs t, es = l ++ None :: r /\ constVals None l vs /\ typeInteger t = true /\
    last vs (t, 0) = (t, 9223372036854775807).

Section LISTS.
  Context {T V : Type}.
  Variable isList : T -> bool.
  Variable conv : nat -> T -> V -> outcome (T * V).

  (** Expressions [cs], the first of which is number [i], converted to the fields [fs]. *)
  Inductive convAll : nat -> list (T * V) -> list (T * V) -> Prop :=
  | ca_nil : forall i, convAll i [] []
  | ca_cons : forall i t v f cs fs, conv i t v = Ok f -> isList (fst f) = false -> convAll (S i) cs fs ->
      convAll i ((t, v) :: cs) (f :: fs).

  (** A correct expression list: a single expression, or at most 16 correct expressions, converted in order. *)
  Definition listOk (es : list (outcome (T * V))) (fs : list (T * V)) : Prop :=
    (exists c, es = [Ok c] /\ fs = [c]) \/
    ((2 <= List.length es <= 16)%nat /\ exists cs, es = map Ok cs /\ convAll 0 cs fs).
End LISTS.

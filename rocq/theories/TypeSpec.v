(** What it means for types to be the same. *)
From Coq Require Import ZArith Bool List.
From Verif Require Import Base TypeModel.
Import ListNotations.

Section SPEC.
Variable g : list tnode.
Variable deq : ty -> Z -> Z -> bool.
Definition at_ (t : ty) (n : tnode) : Prop := nth_error g t = Some n.
(** The pointer to a type is an interface method's type. *)
Definition imethod (t : ty) : Prop := exists n, at_ t n /\ kind n = KFn /\ isInterfaceMethod (tsig n) = true.
Definition plain_type (t : ty) : Prop := (t < length g)%nat /\ ~ imethod t.
(** A map's base is a tree node, whose third field is a pointer to a key. *)
Definition key_of (n : tnode) (k : ty) : Prop := exists b x p q, at_ (base n) b /\ nth_error (field b) 2 = Some (x, p) /\ at_ p q /\ k = base q.
(** What the parser makes: component types exist, and interface methods are components of interfaces only, after the first two fields. *)
Definition wf_node (n : tnode) : Prop :=
  match kind n with
  | KPtr | KWeakPtr | KArray | KDynArray => plain_type (base n)
  | KMap => plain_type (base n) /\ exists k, key_of n k /\ plain_type k
  | KStruct | KClosure => length (field n) = numItems n /\ Forall (fun f => plain_type (snd f)) (field n)
  | KInterface => length (field n) = numItems n /\ (forall i f, nth_error (field n) i = Some f -> (snd f < length g)%nat /\ (imethod (snd f) <-> (2 <= i)%nat))
  | KFn => Forall (fun p => plain_type (fst p)) (param (tsig n)) /\ plain_type (resultType (tsig n)) /\ (numDefaultParams (tsig n) <= length (param (tsig n)))%nat /\
           (isInterfaceMethod (tsig n) = true -> (numDefaultParams (tsig n) < length (param (tsig n)))%nat)
  | _ => True
  end.
Definition wf_types : Prop := forall t n, at_ t n -> wf_node n.

(** The types a type is made of; the receiver of an interface method does not count. *)
Inductive made_of : tnode -> list ty -> Prop :=
| mo_base n : kind n = KPtr \/ kind n = KWeakPtr \/ kind n = KArray \/ kind n = KDynArray -> made_of n [base n]
| mo_map n k : kind n = KMap -> key_of n k -> made_of n [k; base n]
| mo_fields n : kind n = KStruct \/ kind n = KInterface \/ kind n = KClosure -> made_of n (map snd (field n))
| mo_fn n : kind n = KFn -> made_of n (map fst (if isInterfaceMethod (tsig n) then tl (param (tsig n)) else param (tsig n)) ++ [resultType (tsig n)])
| mo_prim n : ~ In (kind n) [KPtr; KWeakPtr; KArray; KDynArray; KMap; KStruct; KInterface; KClosure; KFn] -> made_of n [].
(** The same constructor with the same numbers, names and default values; an enumeration type is like no other. *)
Definition same_default (p q : ty * Z) : Prop := deq (fst p) (snd p) (snd q) = true.
Definition defaults (s : sig) : list (ty * Z) := skipn (length (param s) - numDefaultParams s) (param s).
Definition same_shape (a b : tnode) : Prop :=
  kind a = kind b /\
  match kind a with
  | KArray => numItems a = numItems b
  | KStruct | KInterface | KClosure => map fst (field a) = map fst (field b)
  | KFn => length (param (tsig a)) = length (param (tsig b)) /\ numDefaultParams (tsig a) = numDefaultParams (tsig b) /\ isMethod (tsig a) = isMethod (tsig b) /\
           Forall2 same_default (defaults (tsig a)) (defaults (tsig b))
  | KInt8 | KInt16 | KInt32 | KInt | KUInt8 | KUInt16 | KUInt32 | KUInt => isEnum a = false /\ isEnum b = false
  | _ => True
  end.
Definition named (n : tnode) : Prop := typeIdent n <> None.
(** A relation under which all observations of two related types agree. *)
Definition bisimulation (R : ty -> ty -> Prop) : Prop :=
  forall a b, R a b -> a = b \/ exists m n, at_ a m /\ at_ b n /\
    ((named m /\ named n /\ typeIdent m = typeIdent n /\ block m = block n) \/
     (~ (named m /\ named n) /\ same_shape m n /\ exists p q, made_of m p /\ made_of n q /\ Forall2 R p q)).
(** Two types are the same if there is no way to tell them apart. *)
Definition same_type (a b : ty) : Prop := exists R, bisimulation R /\ R a b.

(** The comparison of default values is symmetric and transitive, for the same types. *)
Definition deq_sym : Prop := forall t u x y, same_type t u -> deq t x y = true -> deq u y x = true.
Definition deq_trans : Prop := forall t u x y z, same_type t u -> deq t x y = true -> deq u y z = true -> deq t x z = true.
(** Identically named types have the same contents. *)
Definition named_once : Prop := forall t u m n, at_ t m -> at_ u n -> named m -> typeIdent m = typeIdent n -> block m = block n -> m = n.
(** A set of nameless types, closed under components. *)
Definition nameless (P : ty -> Prop) : Prop := forall t n p, P t -> at_ t n -> ~ named n /\ (made_of n p -> Forall P p).

(** Reached through the items of arrays and the fields of structures. *)
Inductive inside : ty -> ty -> Prop :=
| in_refl t : inside t t
| in_item t n u : at_ t n -> kind n = KArray \/ kind n = KDynArray -> inside (base n) u -> inside t u
| in_field t n f u : at_ t n -> kind n = KStruct -> In f (field n) -> inside (snd f) u -> inside t u.
Definition comparable_kind (k : tkind) : Prop :=
  ~ In k [KNone; KForward; KVoid; KNull; KMap; KInterface; KClosure; KFiber; KFn].
(** Stored in the value itself. *)
Inductive within : ty -> ty -> Prop :=
| wi_refl t : within t t
| wi_item t n u : at_ t n -> kind n = KArray -> (0 < numItems n)%nat -> within (base n) u -> within t u
| wi_field t n f u : at_ t n -> kind n = KStruct -> In f (field n) -> within (snd f) u -> within t u.
Definition pointer_kind (weak : bool) (k : tkind) : Prop :=
  In k [KPtr; KStr; KMap; KDynArray; KInterface; KClosure; KFiber] \/ (weak = true /\ k = KWeakPtr).
(** Values have a finite size: items and fields are smaller. *)
Definition finite_size (rank : ty -> nat) : Prop :=
  forall t n, at_ t n -> (kind n = KArray -> (0 < numItems n)%nat -> (rank (base n) < rank t)%nat) /\
                         (kind n = KStruct -> forall f, In f (field n) -> (rank (snd f) < rank t)%nat).
End SPEC.

(** What a map is to its user: a finite map, here a list of entries in increasing key order. *)
From Coq Require Import ZArith Bool List.
From Verif Require Import Base MapModel.
Import ListNotations.
Local Open Scope Z_scope.

Section Spec.
Variables K V : Type.
Variable v0 : V.
Variable ord : K -> K -> comparison.

Definition fmap_t : Type := list (K * V).

Fixpoint s_get (s : fmap_t) (k : K) : option V :=
  match s with
  | [] => None
  | (k', v) :: r => match ord k k' with Eq => Some v | _ => s_get r k end
  end.
(** Set the value of [k], keeping the order; an existing key is kept as it was stored. *)
Fixpoint s_set (s : fmap_t) (k : K) (v : V) : fmap_t :=
  match s with
  | [] => [(k, v)]
  | (k', v') :: r => match ord k k' with Lt => (k, v) :: s | Eq => (k', v) :: r | Gt => (k', v') :: s_set r k v end
  end.
Definition s_del (s : fmap_t) (k : K) : fmap_t := filter (fun e => match ord k (fst e) with Eq => false | _ => true end) s.

Definition entries (s : option fmap_t) : fmap_t := match s with Some l => l | None => [] end.

(** State: None is the null map (declared, never assigned or indexed). *)
Definition s_step (s : option fmap_t) (o : op K V) : outcome (option fmap_t * out K V) :=
  let l := entries s in
  match o with
  | OGet k _ => match s_get l k with
                | Some v => Ok (Some l, RVal v)
                | None => Ok (Some (s_set l k v0), RVal v0)   (* indexing creates a zero entry *)
                end
  | OSet k v _ => Ok (Some (s_set l k v), RUnit)
  | ODelete k => match s with Some l => Ok (Some (s_del l k), RUnit) | None => Err ENull end
  | OValidKey k => Ok (s, RBool (match s_get l k with Some _ => true | None => false end))
  | OLen => Ok (s, RInt (Z.of_nat (length l)))
  | OKeys => Ok (s, RKeys (map fst l))
  | OMake => Ok (Some [], RUnit)
  end.

Fixpoint s_run (s : option fmap_t) (ops : list (op K V)) : outcome (option fmap_t * list (out K V)) :=
  match ops with
  | [] => Ok (s, [])
  | o :: r => let* (s, x) := s_step s o in let* (s, xs) := s_run s r in Ok (s, x :: xs)
  end.

(** Two unrelated finite maps used in turn. *)
Fixpoint s_run2 (s1 s2 : option fmap_t) (ops : list (bool * op K V)) : outcome (list (out K V)) :=
  match ops with
  | [] => Ok []
  | (false, o) :: r => let* (s1, x) := s_step s1 o in let* xs := s_run2 s1 s2 r in Ok (x :: xs)
  | (true, o) :: r => let* (s2, x) := s_step s2 o in let* xs := s_run2 s1 s2 r in Ok (x :: xs)
  end.

(** The operation neither changes nor removes the entry of [k]. *)
Definition untouched (k : K) (o : op K V) : Prop :=
  match o with OSet k' _ _ | ODelete k' => ord k' k <> Eq | OMake => False | _ => True end.

(** [ord] is a total order up to Eq on the keys satisfying [P], and the comparison the map uses decides it there. *)
Definition total_order (P : K -> Prop) : Prop :=
  (forall x, P x -> ord x x = Eq) /\
  (forall x y, P x -> P y -> ord y x = CompOpp (ord x y)) /\
  (forall x y z, P x -> P y -> P z -> ord x y = Lt -> ord y z = Lt -> ord x z = Lt) /\
  (forall x y z, P x -> P y -> P z -> ord x y = Eq -> ord x z = ord y z).
Definition decides (P : K -> Prop) (cmp : K -> K -> outcome Z) : Prop :=
  forall x y, P x -> P y -> exists d, cmp x y = Ok d /\ (d ?= 0) = ord x y.

Definition op_keys (P : K -> Prop) (o : op K V) : Prop :=
  match o with
  | OGet k _ | OSet k _ _ | ODelete k | OValidKey k => P k
  | _ => True
  end.
End Spec.
Arguments s_get {K V}. Arguments s_set {K V}. Arguments s_del {K V}. Arguments s_step {K V}. Arguments s_run {K V}. Arguments s_run2 {K V}. Arguments entries {K V}. Arguments untouched {K V}.
Arguments total_order {K}. Arguments decides {K}. Arguments op_keys {K V}.

(** What the user relies on: every object is held by exactly as many references as its count says. *)
From Coq Require Import ZArith Bool List.
From Verif Require Import Base TempModel.
Import ListNotations.
Local Open Scope Z_scope.

(** How many of the values refer to object [o]. *)
Definition refersTo (o : nat) (v : value) : bool := match v with VRef (Some p) => Nat.eqb p o | _ => false end.
Definition occ (o : nat) (l : list value) : Z := Z.of_nat (length (filter (refersTo o) l)).
(** Values of the given kinds. *)
Definition kinds (ks : list bool) (l : list value) : Prop := Forall2 (fun gc v => isRef v = gc) ks l.
(** Each object is held by the globals, by the values in [l], and by [outside o] other owners; objects not yet made are held by nobody. *)
Definition balanced (outside : nat -> Z) (l : list value) (s : st) : Prop :=
  (forall o, cnt s o = outside o + occ o (globs s) + occ o l) /\ (forall o, (onext s <= o)%nat -> cnt s o = 0).

(** Programs where no global variable is the left operand of a concatenation whose right operand calls a function. *)
Fixpoint noCall (e : expr) : bool :=
  match e with
  | ECall _ _ => false
  | ELen e => noCall e
  | ECat a b | ELess a b | EAnd a b | EOr a b => noCall a && noCall b
  | ECond c a b => noCall c && noCall a && noCall b
  | _ => true
  end.
Definition isGlobal (e : expr) : bool := match e with EGlobal _ => true | _ => false end.
Fixpoint careful (e : expr) : bool :=
  match e with
  | ECall _ a => carefulArgs a
  | ELen e => careful e
  | ECat a b => careful a && careful b && (negb (isGlobal a) || noCall b)
  | ELess a b | EAnd a b | EOr a b => careful a && careful b
  | ECond c a b => careful c && careful a && careful b
  | _ => true
  end
with carefulArgs (a : args) : bool := match a with ANil => true | ACons e a => careful e && carefulArgs a end.
Fixpoint carefulStmt (s : stmt) : bool :=
  match s with
  | SSkip | SBreak | SContinue | SReturn None => true
  | SSeq a b => carefulStmt a && carefulStmt b
  | SDecl _ e | SSet _ e | SSetGlobal _ e | SReturn (Some e) => careful e
  | SCall _ a => carefulArgs a
  | SBlock s => carefulStmt s
  | SIf i c a b => carefulStmt i && careful c && carefulStmt a && carefulStmt b
  | SFor i c p b => carefulStmt i && careful c && carefulStmt p && carefulStmt b
  end.
Definition carefulProg (p : list fn) : bool := forallb (fun f => carefulStmt (fbody f)) p.

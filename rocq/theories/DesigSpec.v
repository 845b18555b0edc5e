(** What designators denote. *)
From Coq Require Import Bool List.
From Verif Require Import DesigModel.
Import ListNotations.

(** shortVarDecl begins with ident {"," ident} ":=". *)
Inductive declStart : list tok -> Prop :=
| DS1 : forall r, declStart (KIdent :: KColonEq :: r)
| DS2 : forall r, declStart r -> declStart (KIdent :: KComma :: r).
(** forInHeader begins with ident ["," ident ["^"]] "in"; the caret is some other token. *)
Inductive forInStart : list tok -> Prop :=
| FI1 : forall r, forInStart (KIdent :: KIn :: r)
| FI2 : forall r, forInStart (KIdent :: KComma :: KIdent :: KIn :: r)
| FI3 : forall r, forInStart (KIdent :: KComma :: KIdent :: KOther :: KIn :: r).
(** forHeader begins with a declaration, or with an expression, which has no "," or "in" as its second token. *)
Inductive forStart : list tok -> Prop :=
| FS1 : forall r, declStart r -> forStart r
| FS2 : forall a b r, b <> KComma -> b <> KIn -> forStart (a :: b :: r).

(** Types of variables: items and fields are not void, and functions are stored as closures. *)
Definition holdable (t : ty) : Prop := t <> TVoid /\ forall r, t <> TFn r.
Inductive ok : ty -> Prop :=
| OkBase : forall t, In t [TVoid; TNull; TInt; TChar; TReal; TStr] -> ok t
| OkPtr : forall t, ok t -> (forall r, t <> TFn r) -> ok (TPtr t)
| OkWeak : forall t, ok t -> (forall r, t <> TFn r) -> ok (TWeak t)
| OkArr : forall t, ok t -> holdable t -> ok (TArr t)
| OkDyn : forall t, ok t -> holdable t -> ok (TDyn t)
| OkMap : forall t, ok t -> holdable t -> ok (TMap t)
| OkStruct : forall fs, Forall (fun t => ok t /\ holdable t) fs -> ok (TStruct fs)
| OkFn : forall r, ok r -> (forall q, r <> TFn q) -> ok (TFn r)
| OkClo : forall r, ok r -> (forall q, r <> TFn q) -> ok (TClo r).

(** A pointer of either kind. *)
Inductive points : ty -> ty -> Prop := P1 : forall b, points (TPtr b) b | P2 : forall b, points (TWeak b) b.
(** What a selector looks at, for a variable and for a mere value: the thing itself, or what it points to. For a value a pointer to
    a pointer will do as well, and a weak pointer will not. *)
Definition through (place : bool) (t c : ty) : Prop :=
  c = t \/ if place then points t c else t = TPtr c \/ exists q, t = TPtr q /\ points q c.
Inductive item : ty -> ty -> Prop := I1 : forall e, item (TArr e) e | I2 : forall e, item (TDyn e) e | I3 : forall e, item (TMap e) e.
Inductive fn : ty -> ty -> Prop := F1 : forall r, fn (TFn r) r | F2 : forall r, fn (TClo r) r.

(** Types whose values have parts: arrays, maps, structures, and closures with what they captured. *)
Definition composite (t : ty) : Prop :=
  (exists e, t = TArr e \/ t = TDyn e \/ t = TMap e) \/ (exists fs, t = TStruct fs) \/ exists r, t = TClo r.
(** Methods are for variables, for values with parts and for pointers, not for other values. *)
Definition receiver (place : bool) (t : ty) : Prop := place = true \/ composite t \/ exists q, t = TPtr q.
(** [den d true t]: [d] is a variable, or part of one, that holds a [t]; [den d false t]: it is a value of type [t]. *)
Inductive den : desig -> bool -> ty -> Prop :=
| NVar : forall t, holdable t -> ok t -> den (DHead (HVar t)) true t
| NConst : forall t, ok t -> den (DHead (HConst t)) false t
| NBuiltin : forall t, ok t -> (forall r, t <> TFn r) -> den (DHead (HBuiltin t)) false t
| NCast : forall t, ok t -> (forall r, t <> TFn r) -> den (DHead (HCast t)) false t
| NLit : forall t, ok t -> (forall r, t <> TFn r) -> den (DHead (HLit t)) false t
| NDeref : forall d p t b, den d p t -> points t b -> b <> TVoid -> b <> TNull -> den (DSel d SDeref) true b
| NIndex : forall d p t c e, den d p t -> through p t c -> item c e -> den (DSel d SIndex) true e
| NChar : forall d p t, den d p t -> through p t TStr -> den (DSel d SIndex) false TChar
| NField : forall d p t fs i e, den d p t -> through p t (TStruct fs) -> nth_error fs i = Some e -> den (DSel d (SField i)) true e
| NMethod : forall d p t r, den d p t -> receiver p t -> ok r -> (forall q, r <> TFn q) -> den (DSel d (SMethod r)) false (TFn r)
| NCall : forall d p t c r, den d p t -> through p t c -> fn c r -> den (DSel d SCall) false r.

(** All types written in it are types of variables, and those of methods of functions. *)
Fixpoint written (d : desig) : Prop :=
  match d with
  | DHead (HVar t) => holdable t /\ ok t
  | DHead (HConst t) => ok t
  | DHead (HBuiltin t) | DHead (HCast t) | DHead (HLit t) => ok t /\ forall r, t <> TFn r
  | DSel d (SMethod r) => written d /\ ok r /\ forall q, r <> TFn q
  | DSel d _ => written d
  end.
(** A function stored as a value is a closure. *)
Definition stored (t : ty) : ty := match t with TFn r => TClo r | _ => t end.
Definition isCast (d : desig) : Prop := exists t, d = DHead (HCast t) /\ composite t.
Definition isCall (d : desig) : Prop := (exists d', d = DSel d' SCall) \/ exists t, d = DHead (HBuiltin t).
(** A method that is not called. *)
Definition uncalled (d : desig) : Prop := exists d' r, d = DSel d' (SMethod r).

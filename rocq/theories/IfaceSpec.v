(** Dynamic dispatch: an interface value is a pointer with its type, and a method is looked up by name in this type. *)
From Coq Require Import ZArith Lia Bool List.
From Verif Require Import Base IfaceModel.
Import ListNotations.
Local Open Scope Z_scope.

Section Spec.
Variables T S : Type.
Variable find : T -> nat -> option (Z * S).
Variable isNull : T -> bool.
Variable compat : S -> S -> bool.
Variable tab : nat -> list (nat * S).
Notation val := (val T).
Notation iface := (iface S).
Notation source := (source T S).
Notation meths := (meths S tab).

(** The pointer and its type. *)
Fixpoint content (vs : nat -> val) (s : source) : val * val :=
  match s with
  | SPtr _ _ p t => (p, VType T t)
  | SVar _ _ k _ => (vs k, vs (k + 1)%nat)
  | SConv _ _ _ s => content vs s
  end.
(** The method of this name; 0 if there is none. *)
Definition entry (ty : val) (n : nat) : Z :=
  match ty with VType _ t => if isNull t then 0 else match find t n with Some (e, _) => e | None => 0 end | _ => 0 end.

Variable eff : Z -> list val -> (nat -> val) -> (nat -> val) * val * val.
(** The calls made, the variables after them, and the value. *)
Fixpoint sem (e : expr T S) (vs : nat -> val) : outcome (list (Z * list val) * (nat -> val) * val) :=
  match e with
  | EInt _ _ z => Ok ([], vs, VInt T z)
  | ECall _ _ s n args =>
      let (p, ty) := content vs s in
      let e := entry ty n in
      let* r := semArgs args vs in
      let '(l, vs, ps) := r in
      if e =? 0 then Err EIllegalFn else let '(vs, _, v) := eff e (p :: ps) vs in Ok (l ++ [(e, p :: ps)], vs, v)
  end
with semArgs (a : exprs T S) (vs : nat -> val) : outcome (list (Z * list val) * (nat -> val) * list val) :=
  match a with
  | ENil _ _ => Ok ([], vs, [])
  | ECons _ _ e a =>
      let* r := sem e vs in
      let '(l, vs, v) := r in
      let* r' := semArgs a vs in
      let '(l', vs, ps) := r' in Ok (l ++ l', vs, v :: ps)
  end.

(** What the compiler has to accept. *)
Definition implements (t : stype T S) (n : nat) (s : S) : Prop :=
  match t with
  | TyPtr _ _ t => isNull t = true \/ exists e s', find t n = Some (e, s') /\ compat s s' = true
  | TyI _ _ i => exists s', In (n, s') (meths i) /\ compat s s' = true
  end.
Fixpoint accepted (s : source) : Prop :=
  match s with
  | SPtr _ _ _ _ | SVar _ _ _ _ => True
  | SConv _ _ d s => accepted s /\ forall n sg, In (n, sg) (meths d) -> implements (staticType T S s) n sg
  end.
Fixpoint acceptedExpr (e : expr T S) : Prop :=
  match e with
  | EInt _ _ _ => True
  | ECall _ _ s n args => accepted s /\ (exists i, staticType T S s = TyI T S i /\ In n (map fst (meths i))) /\ acceptedArgs args
  end
with acceptedArgs (a : exprs T S) : Prop :=
  match a with ENil _ _ => True | ECons _ _ e a => acceptedExpr e /\ acceptedArgs a end.

(** The variables used, and the interface types. *)
Fixpoint sourceVars (s : source) : list (nat * iface) :=
  match s with SPtr _ _ _ _ => [] | SVar _ _ k i => [(k, i)] | SConv _ _ _ s => sourceVars s end.
Fixpoint exprVars (e : expr T S) : list (nat * iface) :=
  match e with EInt _ _ _ => [] | ECall _ _ s _ args => sourceVars s ++ argVars args end
with argVars (a : exprs T S) : list (nat * iface) :=
  match a with ENil _ _ => [] | ECons _ _ e a => exprVars e ++ argVars a end.
Fixpoint sourceTypes (s : source) : list iface :=
  match s with SPtr _ _ _ _ => [] | SVar _ _ _ i => [i] | SConv _ _ d s => d :: sourceTypes s end.
Fixpoint exprTypes (e : expr T S) : list iface :=
  match e with EInt _ _ _ => [] | ECall _ _ s _ args => sourceTypes s ++ argTypes args end
with argTypes (a : exprs T S) : list iface :=
  match a with ENil _ _ => [] | ECons _ _ e a => exprTypes e ++ argTypes a end.

(** A variable has the entry points of the methods of the type in it. *)
Definition holds (vs : nat -> val) (k : nat) (i : iface) : Prop :=
  forall j n sg, nth_error (meths i) j = Some (n, sg) -> vs (k + (2 + j))%nat = VInt T (entry (vs (k + 1)%nat) n).
Definition good (decl : list (nat * iface)) (vs : nat -> val) : Prop := forall k i, In (k, i) decl -> holds vs k i.
End Spec.

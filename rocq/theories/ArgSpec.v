(** Which signatures are valid, and which value each formal parameter gets. *)
From Coq Require Import ZArith Lia Bool List.
From Verif Require Import Base ArgModel.
Import ListNotations.
Local Open Scope Z_scope.

Section Spec.
Variables T A D : Type.
Variable canDefault : T -> bool.
Variable fits : T -> A -> bool.
Variables fitsList fitsItem : T -> A -> bool.
Notation group := (group T D).
Notation param := (param T D).
Notation push := (push A D).

(** The formal parameters of a list of groups, in order. *)
Definition formals (l : list group) : list param := flat_map (fun g => map (fun n => Par T D n (gty _ _ g) (gvar _ _ g) (gdef _ _ g)) (gnames _ _ g)) l.
Definition isVar (p : param) : bool := pvar _ _ p.
Definition hasDef (p : param) : bool := match pdef _ _ p with Some _ => true | None => false end.

(** A valid signature: distinct names; at most 16 parameters with the hidden ones; only the last is variadic, and not if there are defaults; once a
    parameter has a default, all that follow have; a default stands alone in its group and has a type that allows it. *)
Definition valid (l : list group) (res : bool) : Prop :=
  NoDup (map (pname _ _) (formals l)) /\ (length (formals l) + 1 + (if res then 1 else 0) <= 16)%nat
  /\ (forall i j p q, (i < j)%nat -> nth_error (formals l) i = Some p -> nth_error (formals l) j = Some q ->
        isVar p = false /\ (hasDef p = true -> hasDef q = true))
  /\ Forall (fun g => (gdef _ _ g <> None -> length (gnames _ _ g) = 1%nat /\ gvar _ _ g = false /\ canDefault (gty _ _ g) = true)
                      /\ (gvar _ _ g = true -> length (gnames _ _ g) = 1%nat)) l.

(** The values of the parameters, or [None] if the call is wrong. *)
Fixpoint values (fs : list param) (acts : list A) : option (list push) :=
  match fs, acts with
  | [], [] => Some []
  | [], _ :: _ => None
  | f :: fs, [] =>
      match values fs [] with
      | Some l => if isVar f then Some (PEmpty _ _ :: l) else match pdef _ _ f with Some d => Some (PDefault _ _ (Some d) :: l) | None => None end
      | None => None
      end
  | f :: fs, a :: acts =>
      if isVar f then
        if fitsList (pty _ _ f) a then match acts with [] => Some [PPass _ _ a] | _ => None end
        else if forallb (fitsItem (pty _ _ f)) (a :: acts) then Some [PList _ _ (a :: acts)] else None
      else if fits (pty _ _ f) a then match values fs acts with Some l => Some (PExpr _ _ a :: l) | None => None end
      else None
  end.
(** Some parameter is variadic and nothing is given for it. *)
Definition emptyList (fs : list param) (acts : list A) : bool := existsb isVar fs && Nat.ltb (length acts) (length fs).
End Spec.

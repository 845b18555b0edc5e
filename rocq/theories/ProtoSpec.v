(** Specification of function declarations: which modules are accepted, and what
    a call does. *)
Require Import Arith List Bool.
Require Import Verif.Base Verif.ProtoModel.
Import ListNotations.
Local Open Scope nat_scope.

(** * Accepted modules *)

(** Declaration [d] may follow the declarations [pre]: earlier declarations of
    the same function are prototypes that look the same, and its body uses
    functions declared before, or itself. *)
Definition fits (pre : list decl) (d : decl) : Prop :=
  (forall d', In d' pre -> did d' = did d ->
     dbody d' = None /\ dty d' = dty d /\ dexp d' = dexp d) /\
  (forall us f, dbody d = Some us -> In f us ->
     exists d', In d' (pre ++ [d]) /\ did d' = f).

(** The function is declared, but has no body. *)
Definition bodiless (ds : list decl) (f : fid) : Prop :=
  (exists d, In d ds /\ did d = f) /\
  (forall d, In d ds -> did d = f -> dbody d = None).

(** Every function without a body is an external one. No two of them have the
    same one from the host. *)
Definition resolvable (h : host) (res : list nat) (ds : list decl) : Prop :=
  (forall f, bodiless ds f ->
     match extern h (bare f) with
     | Some _ => mayUse h (bare f) = true /\ ~ In (bare f) res
     | None => implLib h (bare f) <> None
     end) /\
  (forall f g, bodiless ds f -> bodiless ds g -> bare f = bare g ->
     extern h (bare f) <> None -> f = g).

Definition wellFormed (h : host) (res : list nat) (ds : list decl) : Prop :=
  (forall a d b, ds = a ++ d :: b -> fits a d) /\ resolvable h res ds.

(** No function has two prototypes. *)
Definition onceProto (ds : list decl) : Prop :=
  forall a d b d' c, ds = a ++ d :: b ++ d' :: c -> did d = did d' ->
    dbody d' <> None.

(** * Calls *)

(** The declaration with the body of the function: its number and uses. *)
Fixpoint bodyFrom (n : nat) (ds : list decl) (f : fid) : option (nat * list fid) :=
  match ds with
  | [] => None
  | d :: ds =>
      match dbody d with
      | Some us => if fidEqb (did d) f then Some (n, us) else bodyFrom (S n) ds f
      | None => bodyFrom (S n) ds f
      end
  end.

Definition bodyOf (ds : list decl) (f : fid) : option (nat * list fid) :=
  bodyFrom 0 ds f.

Definition extOf (h : host) (f : fid) : option nat :=
  match extern h (bare f) with
  | Some e => Some e
  | None => implLib h (bare f)
  end.

(** The function [f] is about to begin, or the innermost body goes on with the
    uses left; the bodies around it come next. *)
Inductive sconf :=
| SCall (f : fid) (s : list (list fid))
| SRun (s : list (list fid)).

Definition sstep (ds : list decl) (h : host) (c : sconf)
  : option (list event * sconf) :=
  match c with
  | SCall f s =>
      match bodyOf ds f with
      | Some (d, us) => Some ([EvBody d], SRun (us :: s))
      | None => match extOf h f with
                | Some x => Some ([EvExt x], SRun ([] :: s))
                | None => None
                end
      end
  | SRun ((f :: us) :: s) => Some ([], SCall f (us :: s))
  | SRun ([] :: s) => Some ([], SRun s)
  | SRun [] => None
  end.

Inductive sstar (ds : list decl) (h : host) : sconf -> list event -> sconf -> Prop :=
| S_refl s : sstar ds h s [] s
| S_step s ev s1 tr s2 :
    sstep ds h s = Some (ev, s1) -> sstar ds h s1 tr s2 ->
    sstar ds h s (ev ++ tr) s2.

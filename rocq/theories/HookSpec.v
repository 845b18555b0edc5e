(** Calls and returns that match. *)
From Coq Require Import List Arith.
From Verif Require Import HookModel.
Import ListNotations.

(** [opens es fs]: the events are properly nested and leave the calls of [fs] without a return, innermost first. *)
Inductive opens : list event -> list nat -> Prop :=
| O0 : opens [] []
| OCall : forall es fs f, opens es fs -> opens (es ++ [ECall f]) (f :: fs)
| ORet : forall es fs f, opens es (f :: fs) -> opens (es ++ [ERet f]) fs.
(** The events of one fiber. *)
Definition ofFiber (i : nat) (l : list (nat * event)) : list event := map snd (filter (fun x => fst x =? i) l).

(** Code as the compiler makes it: every function is entered by its first instruction only and left by ILeave and IRet, and control
    stays within it but for calls. *)
Definition inner (p : program) (k f : nat) : Prop := debug p k = f /\ code p k <> Some IEnter /\ code p k <> Some IRet.
Record compiled (p : program) : Prop := Compiled {
  c_enter : forall k, code p k = Some IEnter -> inner p (S k) (debug p k);
  c_leave : forall k, code p k = Some ILeave -> code p (S k) = Some IRet;
  c_call : forall k g, code p k = Some (ICall g) -> code p g = Some IEnter /\ inner p (S k) (debug p k);
  c_goto : forall k g, code p k = Some (IGoto g) -> inner p g (debug p k);
  c_if : forall k g, code p k = Some (IIf g) -> inner p g (debug p k) /\ inner p (S k) (debug p k);
  c_other : forall k, code p k = Some IOther -> inner p (S k) (debug p k) }.

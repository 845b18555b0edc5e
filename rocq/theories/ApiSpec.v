(** Errors as seen by the host. *)
From Coq Require Import ZArith Bool List.
From Verif Require Import Base ApiModel.
Import ListNotations.
Local Open Scope Z_scope.

(** The first error of a call: calls within calls do not stop it. *)
Fixpoint firstErr (a : act) : option Z :=
  let fix go (l : list act) : option Z := match l with [] => None | a :: r => match firstErr a with Some c => Some c | None => go r end end in
  match a with
  | ARun main b => if main then go b else None
  | ACall defined b => if defined then go b else Some (-1)
  | AInit b => go b
  | AErr c _ => Some c
  | AExit c => Some (s32 c)
  end.

(** Actions during a call: functions are called by umkaCall only. *)
Fixpoint inner (a : act) : Prop :=
  let fix all (l : list act) : Prop := match l with [] => True | a :: r => inner a /\ all r end in
  match a with ACall _ b => all b | AErr _ _ | AExit _ => True | ARun _ _ | AInit _ => False end.
Fixpoint inners (l : list act) : Prop := match l with [] => True | a :: r => inner a /\ inners r end.
(** Actions of the host: umkaRun and umkaCall. *)
Definition outer (a : act) : Prop := match a with ARun _ b | ACall _ b => inners b | _ => False end.

Fixpoint depth (a : act) : Z :=
  let fix go (l : list act) : Z := match l with [] => 0 | a :: r => Z.max (depth a) (go r) end in
  match a with ARun _ b | ACall _ b | AInit b => 1 + go b | _ => 0 end.

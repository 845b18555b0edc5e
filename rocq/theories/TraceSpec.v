(** Specification for TraceModel.v. *)
From Coq Require Import ZArith Lia Bool List.
From Verif Require Import Base CallModel CallSpec TraceModel.
Import ListNotations.
Local Open Scope Z_scope.

(** Where each unfinished call goes on when it returns, the innermost first. *)
Fixpoint returns (s : stk) : list Z := match s with Bot _ _ => [] | Frame _ _ _ _ r _ u => r :: returns u end.
(** A call made by an instruction, not by host code and not the start of a fiber. *)
Definition inside (r : Z) : bool := negb ((r =? RETURN_FROM_FIBER) || (r =? RETURN_FROM_VM)).
Fixpoint untilOutside (l : list Z) : list Z := match l with [] => [] | r :: t => if inside r then r :: untilOutside t else [] end.
(** The instructions of a call stack: the current one, then those the callers go on with, up to the call by host code or the start of
    the fiber. *)
Definition active (x : fiber astk) : list Z := f_ip _ x :: untilOutside (returns (a_stk (f_stk _ x))).
(** What the debug table says about an instruction. *)
Definition place (dbg : list position) (ip : Z) : position := nth (Z.to_nat ip) dbg (MkPos [] [] 0).
Definition known (dbg : list position) (ip : Z) : Prop := 0 <= ip < Z.of_nat (length dbg).
(** The names leave room for a zero in a buffer of [nameSize] bytes. *)
Definition shown (nameSize : nat) (p : position) : position :=
  MkPos (firstn (Nat.pred nameSize) (p_file p)) (firstn (Nat.pred nameSize) (p_fn p)) (p_line p).

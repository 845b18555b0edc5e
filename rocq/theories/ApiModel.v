(** The entry points of the interpreter and the way an error returns through them (src/umka_api.c:36-132, src/umka_vm.c:3081-3088,
    4154-4197).

    An error calls longjmp with the jump buffer of the instance, which holds the C frame of the setjmp that filled it last. A jump to a
    frame that has returned is undefined behaviour. *)
From Coq Require Import ZArith Bool List.
From Verif Require Import Base.
Import ListNotations.
Local Open Scope Z_scope.

(** What happens in the host program, in order. The lists are what happens during the call: calls made by external functions, and
    errors. *)
Inductive act : Type :=
| ARun (main : bool) (b : list act)        (* umkaRun; is there a main function? *)
| ACall (defined : bool) (b : list act)    (* umkaCall; is the function defined? *)
| AInit (b : list act)                     (* umkaInit or umkaCompile *)
| AErr (code : Z) (inMain : bool)          (* an error with this code, while the main fiber, or another, runs *)
| AExit (code : Z).                        (* exit(code) *)

(** src/umka_common.h:78-90, the part of struct Error in use, and whether vm->fiber is alive. C frames are numbered as they are entered. *)
Record st : Type := MkSt { jumper : option nat; nesting : Z; alive : bool; next : nat; report : option Z }.

Inductive res : Type := RDone | RJump (frame : nat).

(** src/umka_vm.h:47. *)
Definition ERR_RUNTIME : Z := -1.

(** src/umka_api.c:36-61, compileError and runtimeError: the report, vmKill, the jump. *)
Definition fail (code : Z) (inMain : bool) (live : list nat) (s : st) : outcome (st * list Z * res) :=
  let s1 := MkSt (jumper s) (nesting s) (if inMain then false else alive s) (next s) (Some code) in
  match jumper s with
  | Some j => if existsb (Nat.eqb j) live then Ok (s1, [], RJump j) else UB
  | None => UB
  end.

Definition incNesting (s : st) : outcome st :=
  if INT_MAX <=? nesting s then UB else Ok (MkSt (jumper s) (nesting s + 1) (alive s) (next s) (report s)).
Definition decNesting (s : st) : outcome st :=
  if nesting s <=? INT_MIN then UB else Ok (MkSt (jumper s) (nesting s - 1) (alive s) (next s) (report s)).
Definition codeOf (s : st) : Z := match report s with Some c => c | None => 0 end.

(** The end of umkaRun and umkaCall (lines 109-114, 127-131): a normal end, a jump to this frame, or one to another frame. *)
Definition finish (id : nat) (x : st * list Z * res) : outcome (st * list Z * res) :=
  let '(s, _, r) := x in
  match r with
  | RDone => let* s1 := decNesting s in Ok (s1, [0], RDone)
  | RJump j => if Nat.eqb j id then Ok (s, [codeOf s], RDone) else Ok (s, [], RJump j)
  end.

(** One action, with the C frames of entry points that are active. The result lists the codes returned to the caller at this level. *)
Fixpoint exec (a : act) (live : list nat) (s : st) {struct a} : outcome (st * list Z * res) :=
  let fix execs (l : list act) (live : list nat) (s : st) {struct l} : outcome (st * list Z * res) :=
    match l with
    | [] => Ok (s, [], RDone)
    | a :: l1 =>
        let* (s1, c1, r) := exec a live s in
        match r with
        | RDone => let* (s2, c2, r2) := execs l1 live s1 in Ok (s2, c1 ++ c2, r2)
        | RJump j => Ok (s1, c1, RJump j)
        end
    end in
  match a with
  | AErr code inMain => fail code inMain live s
  | AExit code => fail (s32 code) true live s   (* doBuiltinExit: fiber->alive = false; the code is passed as an int *)
  | AInit b =>   (* 71-100 *)
      let id := next s in
      let s0 := MkSt (Some id) (nesting s) (alive s) (S id) (report s) in
      let* (s1, _, r) := execs b (id :: live) s0 in
      match r with
      | RDone => Ok (s1, [0], RDone)
      | RJump j => if Nat.eqb j id then Ok (s1, [1], RDone) else Ok (s1, [], RJump j)
      end
  | ARun main b =>   (* 103-115; compilerRun and vmCall *)
      let id := next s in
      let* s0 := incNesting (MkSt (Some id) (nesting s) (alive s) (S id) (report s)) in
      let* x := if negb main then Ok (s0, [], RDone) else
                if negb (alive s0) then fail ERR_RUNTIME true (id :: live) s0 else
                execs b (id :: live) s0 in
      finish id x
  | ACall defined b =>   (* 118-132; vmCall *)
      let id := next s in
      let* s0 := incNesting (MkSt (if nesting s =? 0 then Some id else jumper s) (nesting s) (alive s) (S id) (report s)) in
      let* x := if negb (alive s0) then fail ERR_RUNTIME true (id :: live) s0 else
                if negb defined then fail ERR_RUNTIME true (id :: live) s0 else
                execs b (id :: live) s0 in
      finish id x
  end.
Fixpoint execs (l : list act) (live : list nat) (s : st) {struct l} : outcome (st * list Z * res) :=
  match l with
  | [] => Ok (s, [], RDone)
  | a :: l1 =>
      let* (s1, c1, r) := exec a live s in
      match r with
      | RDone => let* (s2, c2, r2) := execs l1 live s1 in Ok (s2, c1 ++ c2, r2)
      | RJump j => Ok (s1, c1, RJump j)
      end
  end.

(** A host program starts with umkaInit, which clears the instance (line 73), and umkaCompile. *)
Definition start : st := MkSt None 0 true 0 None.
Definition host (l : list act) : outcome (st * list Z * res) := execs (AInit [] :: AInit [] :: l) [] start.

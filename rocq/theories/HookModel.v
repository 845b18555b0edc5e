(** The hooks a host may set for calls and returns.

    Simplifications: of the stack only return addresses and frames are kept, so locals, parameters and results are left out; which
    way a jump goes and which fiber is resumed is left open. Both hooks are set before the program is run. Calls from C functions back
    into the program are left out, and so are the few instructions outside of functions that call main. *)
From Coq Require Import List.
Import ListNotations.

(** Instructions (src/umka_vm.h); [IGoto] stands for all jumps, [IOther] for those that go on to the next instruction. *)
Inductive instr : Type := IEnter | ILeave | IRet | ICall (k : nat) | IGoto (k : nat) | IIf (k : nat) | IOther.
(** fnName in debugPerInstr is a number. *)
Record program : Type := Prog { code : nat -> option instr; debug : nat -> nat }.
(** Slots: a return address, None being RETURN_FROM_FIBER or RETURN_FROM_VM, and a frame. *)
Inductive slot : Type := SRet (k : option nat) | SFrame.
Record fiber : Type := Fib { ip : nat; stack : list slot; alive : bool }.
(** What a hook is told. *)
Inductive event : Type := ECall (f : nat) | ERet (f : nat).
(** doHook (src/umka_vm.c:959-966). *)
Definition hookCall (p : program) (f : fiber) : event := ECall (debug p (ip f)).
Definition hookRet (p : program) (f : fiber) : event := ERet (debug p (ip f)).

(** One instruction of a fiber, with the events; [choice] says whether a condition holds. doEnterFrame, doLeaveFrame, doReturn, doCall
    (src/umka_vm.c:3833-3841, 3984-4052). *)
Definition exec (p : program) (choice : bool) (f : fiber) : option (fiber * list event) :=
  if alive f then
    match code p (ip f) with
    | Some IEnter => Some (Fib (S (ip f)) (SFrame :: stack f) true, [hookCall p f])
    | Some ILeave => match stack f with SFrame :: s => Some (Fib (S (ip f)) s true, [hookRet p f]) | _ => None end
    | Some IRet => match stack f with
                   | SRet (Some k) :: s => Some (Fib k s true, [])
                   | SRet None :: s => Some (Fib (ip f) s false, [])
                   | _ => None
                   end
    | Some (ICall k) => Some (Fib k (SRet (Some (S (ip f))) :: stack f) true, [])
    | Some (IGoto k) => Some (Fib k (stack f) true, [])
    | Some (IIf k) => Some (Fib (if choice then k else S (ip f)) (stack f) true, [])
    | Some IOther => Some (Fib (S (ip f)) (stack f) true, [])
    | None => None
    end
  else None.
(** A fiber as made by OP_CALL_BUILTIN for make and by vmRun: it will enter a function. *)
Definition newFiber (k : nat) : fiber := Fib k [SRet None] true.

(** All fibers, and the events so far, latest last, with the number of the fiber, which the hooks are not told. *)
Record vm : Type := VM { fibers : list fiber; log : list (nat * event) }.
Fixpoint setNth (l : list fiber) (i : nat) (f : fiber) : list fiber :=
  match l, i with [], _ => [] | _ :: r, O => f :: r | a :: r, S i => a :: setNth r i f end.
(** What can happen: the fiber whose turn it is goes on, or a fiber is made. vmLoop (src/umka_vm.c:4058-4154). *)
Inductive op : Type := Go (i : nat) (choice : bool) | Make (k : nat).
Definition step (p : program) (v : vm) (o : op) : option vm :=
  match o with
  | Go i c =>
      match nth_error (fibers v) i with
      | Some f => match exec p c f with
                  | Some (f', es) => Some (VM (setNth (fibers v) i f') (log v ++ map (pair i) es))
                  | None => None
                  end
      | None => None
      end
  | Make k => match code p k with Some IEnter => Some (VM (fibers v ++ [newFiber k]) (log v)) | _ => None end
  end.
Fixpoint run (p : program) (v : vm) (l : list op) : option vm :=
  match l with [] => Some v | o :: r => match step p v o with Some v => run p v r | None => None end end.
Definition start : vm := VM [] [].

(** ** Making a function *)
(** An instruction and what debugPerInstr says of it: function and line. *)
Definition line : Type := (instr * (nat * nat))%type.
(** genAddInstr (src/umka_gen.c:68-78): at the position or in place of what is there. *)
Definition put (b : list line) (at_ : nat) (i : instr) (d : nat * nat) : list line := firstn at_ b ++ (i, d) :: skipn (S at_) b.
(** genEnterFrameStub, the statements of the body each with its line, genLeaveFrameFixup, genReturn (src/umka_gen.c:1108-1125,
    src/umka_stmt.c:1298, 1349, 1370-1371); [first] and [last] are the lines of the braces. Functions within the body are left
    out. *)
Definition makeFn (b : list line) (f first last : nat) (body : list (instr * nat)) : list line :=
  let pos := length b in
  let b := put b pos IOther (f, first) in
  let b := fold_left (fun b x => put b (length b) (fst x) (f, snd x)) body b in
  let b := put b pos IEnter (f, last) in
  let b := put b (length b) ILeave (f, last) in
  put b (length b) IRet (f, last).

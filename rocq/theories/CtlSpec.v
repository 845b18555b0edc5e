(** What control statements do. *)
From Coq Require Import ZArith Bool List.
From Verif Require Import Base NumModel MemModel BlkModel GenModel GenVm GenSpec CtlModel.
Import ListNotations.
Local Open Scope Z_scope.

(** Does a statement contain a break, continue or return for something around it? The grammar has none in the header of a loop. *)
Definition goto_eqb (a b : goto) : bool := match a, b with GBreak, GBreak | GContinue, GContinue | GReturn, GReturn => true | _, _ => false end.
Fixpoint leaves (w : goto) (p : stmt) : bool :=
  match p with
  | Skip | Req _ => false
  | Seq a b | IfElse a b => leaves w a || leaves w b
  | Short _ a | If a => leaves w a
  | Switch cs d => cleaves w cs || leaves w d
  | TSwitch cs d => tleaves w cs || leaves w d
  | For1 _ _ body _ | For2 _ _ _ body => goto_eqb w GReturn && leaves w body
  | Goto x => goto_eqb w x
  end
with cleaves (w : goto) (cs : cases) : bool := match cs with CNil => false | CCons _ b r => leaves w b || cleaves w r end
with tleaves (w : goto) (cs : tcases) : bool := match cs with TNil => false | TCons _ b r => leaves w b || tleaves w r end.
Definition quiet (p : stmt) : bool := negb (leaves GBreak p || leaves GContinue p || leaves GReturn p).
Fixpoint wf (p : stmt) : bool :=
  match p with
  | Skip | Req _ | Goto _ => true
  | Seq a b | IfElse a b => wf a && wf b
  | Short _ a | If a => wf a
  | Switch cs d => cwf cs && wf d
  | TSwitch cs d => twf cs && wf d
  | For1 init cond body post | For2 init cond post body => quiet init && quiet cond && quiet post && wf init && wf cond && wf post && wf body
  end
with cwf (cs : cases) : bool := match cs with CNil => true | CCons _ b r => wf b && cwf r end
with twf (cs : tcases) : bool := match cs with TNil => true | TCons _ b r => wf b && twf r end.

(** How a statement ends: it goes on, or leaves by break, continue or return. *)
Inductive how : Type := On | Jmp (w : goto).
Section Spec.
Variable H : Type.
Inductive out : Type := Go (w : how) (s : st H) | Stop (r : res H) | Fuel.
Variable E : env H.
Variable strict : bool.

(** The operand stack must have room for [k] more slots. *)
Definition room (k : Z) (s : st H) (x : out) : out :=
  if lim (co s) <? Z.of_nat (length (stk (co s))) + k then Stop (RErr EStackOverflow (mm (co s)) (hp (co s))) else x.
Definition on (x : out) (f : st H -> out) : out := match x with Go On s => f s | x => x end.
Definition top (s : st H) (f : slot -> st H -> out) : out :=
  match stk (co s) with v :: l => f v (wc s (with_stk (co s) l)) | [] => Stop RUB end.
(** Take the condition from the stack. *)
Definition test (s : st H) (f : bool -> st H -> out) : out := room 0 s (top s (fun v s => f (negb (fst v =? 0)) s)).
Definition prim (i : instr) (s : st H) : out :=
  match i with
  | IHalt => room 0 s (Stop (ROk s))
  | _ => match step E strict i s with ROk s => Go On s | r => Stop r end
  end.
Fixpoint prims (l : list instr) (s : st H) : out := match l with [] => Go On s | i :: l => on (prim i s) (prims l) end.
(** The first of the constants that equals the value of the switch. *)
Fixpoint matches (ks : list (kind * Z)) (s : st H) (f : bool -> out) : out :=
  match ks with
  | [] => f false
  | (k, v) :: ks =>
      room 2 s (match doBinary (elm E) OpEqEq k (fst (rsw (co s))) v with
                | Ok b => if b =? 0 then matches ks s f else f true
                | Err e => Stop (RErr e (mm (co s)) (hp (co s)))
                | UB => Stop RUB
                end)
  end.

(** A loop: condition, body, statement after each iteration. [n] bounds the number of iterations. In the general form the body is
    followed by a jump. *)
Definition loop (general : bool) (cond body post : st H -> out) : nat -> st H -> out :=
  fix loop (n : nat) (s : st H) : out :=
    match n with
    | O => Fuel
    | S n =>
        on (cond s) (fun s => test s (fun b s =>
        if b then
          match body s with
          | Go (Jmp GBreak) s => Go On s
          | Go On s | Go (Jmp GContinue) s => (if general then room 0 s else fun x => x) (on (post s) (fun s => room 0 s (loop n s)))
          | x => x
          end
        else (if general then room 0 s else fun x => x) (Go On s)))
    end.

(** Statements; no loop runs more than [n] times. *)
Fixpoint ev (n : nat) (p : stmt) (s : st H) {struct p} : out :=
  match p with
  | Skip => Go On s
  | Req q => prim (instr_of q) s
  | Seq a b => on (ev n a s) (ev n b)
  | Short isAnd b =>
      match stk (co s) with
      | [] => room 0 s (Stop RUB)
      | v :: _ => room 1 s (if Bool.eqb (fst v =? 0) isAnd then Go On s else top s (fun _ s => ev n b s))
      end
  | If a => test s (fun b s => if b then ev n a s else Go On s)
  | IfElse a b => test s (fun c s => if c then on (ev n a s) (fun s => room 0 s (Go On s)) else ev n b s)
  | Switch cs d => room 0 s (top s (fun v s => evc n cs (ev n d) (setReg s RSwitch v)))
  | TSwitch cs d => on (evt n cs (ev n d) s) (prim (IPop 1))
  | For1 init cond body post =>
      on (ev n init s) (loop false (ev n cond) (ev n body) (ev n post) n)
  | For2 init cond post body =>
      on (ev n init s) (loop true (ev n cond) (ev n body) (ev n post) n)
  | Goto w => room 0 s (Go (Jmp w) s)
  end
with evc (n : nat) (cs : cases) (d : st H -> out) (s : st H) {struct cs} : out :=
  match cs with
  | CNil => d s
  | CCons ks body rest =>
      matches ks s (fun b => if b then on (ev n body s) (fun s => room 0 s (Go On s)) else room 0 s (evc n rest d s))
  end
with evt (n : nat) (cs : tcases) (d : st H -> out) (s : st H) {struct cs} : out :=
  match cs with
  | TNil => d s
  | TCons t body rest =>
      on (prims (map instr_of (typeTest t)) s) (fun s => test s (fun b s =>
      if b then on (ev n body s) (fun s => room 0 s (Go On s)) else on (prim (IPop 1) s) (evt n rest d)))
  end.
(** A function: its body until the end or a return, then its end. *)
Definition evFn (n : nat) (body : stmt) (epi : list req) (s : st H) : out :=
  match ev n body s with
  | Go On s | Go (Jmp GReturn) s => on (prims (map instr_of epi) s) (prim IHalt)
  | Go _ _ => Stop RUB
  | x => x
  end.
End Spec.
Arguments Go {H}. Arguments Stop {H}. Arguments Fuel {H}. Arguments room {H}. Arguments on {H}. Arguments top {H}. Arguments test {H}. Arguments prim {H}.
Arguments prims {H}. Arguments matches {H}. Arguments loop {H}. Arguments ev {H}. Arguments evc {H}. Arguments evt {H}. Arguments evFn {H}.

(** The cases of a switch. *)
Fixpoint caseIn (ks : list (kind * Z)) (b : stmt) (cs : cases) : Prop :=
  match cs with CNil => False | CCons ks' b' r => (ks' = ks /\ b' = b) \/ caseIn ks b r end.
Fixpoint constants (cs : cases) : list Z := match cs with CNil => [] | CCons ks _ r => map snd ks ++ constants r end.
Fixpoint allOf (k : kind) (cs : cases) : Prop := match cs with CNil => True | CCons ks _ r => Forall (fun kv => fst kv = k /\ in_s64 (snd kv)) ks /\ allOf k r end.

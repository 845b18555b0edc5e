(** Specification for CallModel.v: an ideal stack of frames that has no lower end. Each frame has its own operands, local variables and
    parameters; only variables can be reached through pointers. An operation that uses the stack in another way is undefined here. *)
From Coq Require Import ZArith Lia Bool List.
From Verif Require Import Base CallModel.
Import ListNotations.
Local Open Scope Z_scope.

(** The part of a stack before any call ([g] is the slot at the stack's end, never used), and a function call above its caller. *)
Inductive stk : Type :=
| Bot (ops : list val) (g : val)
| Frame (ops loc : list val) (l : layout) (refs ret : Z) (ps : list val) (u : stk).
Record astk : Type := MkA { a_size : Z; a_stk : stk }.

Definition len {A} (l : list A) : Z := Z.of_nat (length l).
(** The slots in use: the operands, the local variables, three slots of the header, the return address, the parameters. *)
Fixpoint slen (s : stk) : Z :=
  match s with
  | Bot ops _ => len ops + 1
  | Frame ops loc _ _ _ ps u => len ops + len loc + 3 + 1 + len ps + slen u
  end.
Definition sops_of (s : stk) : list val := match s with Bot o _ => o | Frame o _ _ _ _ _ _ => o end.
Definition set_ops (s : stk) (o : list val) : stk := match s with Bot _ g => Bot o g | Frame _ loc l n r ps u => Frame o loc l n r ps u end.
(** The number of the slot from which the parameters and local variables of a frame are counted. *)
Definition base_of (size : Z) (s : stk) : Z := match s with Bot _ _ => size - 1 | Frame _ _ _ _ _ ps u => size - slen u - len ps - 2 end.

Definition a_top (a : astk) : Z := a_size a - slen (a_stk a).
Definition a_push (a : astk) (ws : list val) : outcome astk := Ok (MkA (a_size a) (set_ops (a_stk a) (ws ++ sops_of (a_stk a)))).
Definition a_pop (a : astk) (n : nat) : outcome (list val * astk) :=
  let o := sops_of (a_stk a) in
  if Nat.leb n (length o) then Ok (firstn n o, MkA (a_size a) (set_ops (a_stk a) (skipn n o))) else UB.
(** The variable at an address. *)
Fixpoint readS (size : Z) (s : stk) (i : Z) : outcome val :=
  match s with
  | Bot _ _ => UB
  | Frame _ loc _ _ _ ps u =>
      let b := base_of size s in
      if size - slen u <=? i then readS size u i
      else if b + 2 <=? i then Ok (nth (Z.to_nat (i - (b + 2))) ps (VZ 0))
      else if (b - 2 - len loc <=? i) && (i <? b - 2) then Ok (nth (Z.to_nat (i - (b - 2 - len loc))) loc (VZ 0))
      else UB
  end.
Fixpoint writeS (size : Z) (s : stk) (i : Z) (w : val) : outcome stk :=
  match s with
  | Bot _ _ => UB
  | Frame o loc l n r ps u =>
      let b := base_of size s in
      if size - slen u <=? i then let* u' := writeS size u i w in Ok (Frame o loc l n r ps u')
      else if b + 2 <=? i then Ok (Frame o loc l n r (upd ps (Z.to_nat (i - (b + 2))) w) u)
      else if (b - 2 - len loc <=? i) && (i <? b - 2) then Ok (Frame o (upd loc (Z.to_nat (i - (b - 2 - len loc))) w) l n r ps u)
      else UB
  end.
Definition a_read (a : astk) (i : Z) : outcome val := readS (a_size a) (a_stk a) i.
Definition a_write (a : astk) (i : Z) (w : val) : outcome astk := let* s := writeS (a_size a) (a_stk a) i w in Ok (MkA (a_size a) s).
Definition a_local (a : astk) (off : Z) : outcome Z := Ok (base_of (a_size a) (a_stk a) + off).
Definition a_params (a : astk) : outcome (list val) := match a_stk a with Frame _ _ _ _ _ ps _ => Ok ps | Bot _ _ => UB end.
(** A call takes the return address and its parameters from the operands of the caller. *)
Definition a_enter (a : astk) (l : layout) : outcome astk :=
  if (l_locals l <? 0) || (l_params l <? 0) then UB else
  match sops_of (a_stk a) with
  | VZ r :: rest =>
      let n := Z.to_nat (l_params l) in
      if Nat.leb n (length rest)
      then Ok (MkA (a_size a) (Frame [] (repeat (VZ 0) (Z.to_nat (l_locals l))) l 0 r (firstn n rest) (set_ops (a_stk a) (skipn n rest))))
      else UB
  | _ => UB
  end.
(** Leaving gives them back. *)
Definition a_leave (a : astk) : outcome astk :=
  match a_stk a with
  | Frame _ _ _ refs r ps u => if refs =? 0 then Ok (MkA (a_size a) (set_ops u (VZ r :: ps ++ sops_of u))) else Err EEscape
  | Bot _ _ => UB
  end.
(** A reference is counted for the frame the address belongs to; frames below a call from outside are not searched. *)
Fixpoint refS (size : Z) (s : stk) (i d : Z) : outcome stk :=
  match s with
  | Bot _ _ => UB
  | Frame o loc l n r ps u =>
      if i <? size - slen u then Ok (Frame o loc l (n + d) r ps u)
      else if (r =? RETURN_FROM_FIBER) || (r =? RETURN_FROM_VM) then Err EOther
      else let* u' := refS size u i d in Ok (Frame o loc l n r ps u')
  end.
Definition a_ref (a : astk) (i d : Z) : outcome astk :=
  if (a_top a <=? i) && (i <? a_size a) then
    match a_stk a with
    | Bot _ _ => Ok a
    | Frame _ _ _ _ _ _ _ => let* s := refS (a_size a) (a_stk a) i d in Ok (MkA (a_size a) s)
    end
  else Ok a.
Definition a_new (a : astk) : outcome astk := Ok (MkA (a_size a) (Bot [] (VZ 0))).

Definition aops : sops astk := MkOps astk a_top a_push a_pop a_read a_write a_local a_params a_enter a_leave a_ref a_new.

(** ** What the words of the properties mean *)
(** The slots of a stack as they lie in memory, from the top to the end of the stack. *)
Fixpoint flat (size : Z) (s : stk) : list val :=
  match s with
  | Bot ops g => ops ++ [g]
  | Frame ops loc l refs r ps u => ops ++ loc ++ VL l :: VZ refs :: VB (base_of size u) :: VZ r :: ps ++ flat size u
  end.
(** Every frame has as many parameters and local variables as its layout says. *)
Fixpoint wfS (s : stk) : Prop :=
  match s with Bot _ _ => True | Frame _ loc l _ _ ps u => len ps = l_params l /\ len loc = l_locals l /\ wfS u end.
(** A stack in memory represents an ideal one, within its bounds. *)
Definition repr (c : cstk) (a : astk) : Prop :=
  c_size c = a_size a /\ 0 <= a_top a /\ c_top c = a_top a /\ skipn (Z.to_nat (a_top a)) (c_mem c) = flat (a_size a) (a_stk a) /\
  c_base c = base_of (a_size a) (a_stk a) /\ wfS (a_stk a).
Definition reprF (c : fiber cstk) (a : fiber astk) : Prop :=
  repr (f_stk _ c) (f_stk _ a) /\ f_ip _ c = f_ip _ a /\ f_regs _ c = f_regs _ a /\ f_parent _ c = f_parent _ a /\ f_alive _ c = f_alive _ a.
Definition reprO (c : option (fiber cstk)) (a : option (fiber astk)) : Prop :=
  match c, a with None, None => True | Some x, Some y => reprF x y | _, _ => False end.
Definition reprV (c : vm cstk) (a : vm astk) : Prop :=
  Forall2 reprO (fibs _ c) (fibs _ a) /\ loopf _ c = loopf _ a /\ vmf _ c = vmf _ a /\ hosts _ c = hosts _ a /\ gm _ c = gm _ a.
Definition reprR (c : sres cstk) (a : sres astk) : Prop :=
  match c, a with Go _ x, Go _ y => reprV x y | Stop _ x, Stop _ y => reprV x y | _, _ => False end.

(** The same stack except for the values of variables and the reference counts of frames. *)
Fixpoint same (s t : stk) : Prop :=
  match s, t with
  | Bot o g, Bot o2 g2 => o = o2 /\ g = g2
  | Frame o loc l _ r ps u, Frame o2 loc2 l2 _ r2 ps2 u2 => o = o2 /\ length loc = length loc2 /\ l = l2 /\ r = r2 /\ length ps = length ps2 /\ same u u2
  | _, _ => False
  end.
(** The same except also for the operands of the last call. *)
Definition kept (s t : stk) : Prop := same (set_ops s (sops_of t)) t.
(** [t], with other operands, is the stack [s] or what is below some of its calls. *)
Fixpoint reaches (s t : stk) : Prop := kept t s \/ match s with Bot _ _ => False | Frame _ _ _ _ _ _ u => reaches u t end.
(** The number of unfinished calls. *)
Fixpoint depth (s : stk) : nat := match s with Bot _ _ => O | Frame _ _ _ _ _ _ u => S (depth u) end.
(** The reference count of the [d]-th call, and the call whose part of the stack has an address. *)
Fixpoint refsAt (d : nat) (s : stk) : Z := match s with Bot _ _ => 0 | Frame _ _ _ n _ _ u => if Nat.eqb (S (depth u)) d then n else refsAt d u end.
Fixpoint owner (size : Z) (s : stk) (i : Z) : nat := match s with Bot _ _ => O | Frame _ _ _ _ _ _ u => if i <? size - slen u then S (depth u) else owner size u i end.
(** The fibers an iteration may run or return to: the running one, those with waiting calls from outside and those where a call from
    outside has just returned. *)
Definition involved {St} (v : vm St) (g : nat) : bool :=
  Nat.eqb g (loopf _ v) || Nat.eqb g (vmf _ v) || existsb (fun h => Nat.eqb g (fst (fst h))) (hosts _ v) ||
  match nth_error (fibs _ v) g with Some (Some x) => f_ip _ x =? RETURN_FROM_VM | _ => false end.

(** What the static text of a program must satisfy: no instruction but those that check needs more than 1000 slots. *)
Definition frugal (i : instr) : Prop :=
  match i with
  | IOp _ f => forall ws rs, f ws = Ok rs -> len rs <= 1000
  | ISort n => Z.of_nat n <= 1000
  | _ => True
  end.
Inductive frugalH : hostprog -> Prop :=
| FRet w : frugalH (HRet w)
| FCall e ps k : len ps <= 1000 -> (forall w, frugalH (k w)) -> frugalH (HCall e ps k).

(** ** Runs of the ideal machine *)
Section Runs.
Variable code : Z -> option instr.
Variable ext : nat -> list val -> hostprog.
(** [n] iterations, in none of which fiber [g] is involved. *)
Fixpoint away (g : nat) (n : nat) (v w : vm astk) : Prop :=
  match n with
  | O => v = w
  | S m => involved v g = false /\ exists v1, step _ aops code ext v = Ok (Go _ v1) /\ away g m v1 w
  end.
(** How often fiber [f] is met going from fiber [g] to its parent and so on. *)
Fixpoint visits (n : nat) (v : vm astk) (g f : nat) : Z :=
  match n with
  | O => 0
  | S m => match nth_error (fibs _ v) g with
           | Some (Some x) => (if Nat.eqb g f then 1 else 0) + match f_parent _ x with Some p => visits m v p f | None => 0 end
           | _ => 0
           end
  end.
(** What the next instruction adds to the reference count of the [d]-th call of fiber [f]: it counts references to an address in that
    call's part of the stack. *)
Definition counted (v : vm astk) (f d : nat) : Z :=
  match getF _ v (loopf _ v), getF _ v f with
  | Ok x, Ok y =>
      match code (f_ip _ x), sops_of (a_stk (f_stk _ x)) with
      | Some (IRef delta), VS f' i :: _ =>
          if Nat.eqb f' f && (a_top (f_stk _ y) <=? i) && (i <? a_size (f_stk _ y)) && Nat.eqb (owner (a_size (f_stk _ y)) (a_stk (f_stk _ y)) i) d
          then visits (length (fibs _ v)) v (vmf _ v) f * delta else 0
      | _, _ => 0
      end
  | _, _ => 0
  end.
(** [n] iterations, after each of which fiber [f] has at least [d] unfinished calls; [total] is what they add to the reference count of
    the [d]-th call. *)
Definition deep (v : vm astk) (f d : nat) : Prop := exists x, getF _ v f = Ok x /\ (d <= depth (a_stk (f_stk _ x)))%nat.
Fixpoint within (f d n : nat) (v w : vm astk) (total : Z) : Prop :=
  match n with
  | O => v = w /\ total = 0
  | S m => exists v1, step _ aops code ext v = Ok (Go _ v1) /\ deep v1 f d /\ within f d m v1 w (total - counted v f d)
  end.
End Runs.

(** ** Switching fibers *)
(** Fiber [x] after the operand on its top has been taken and it has moved on to its next instruction. *)
Definition moved (x : fiber cstk) : fiber cstk :=
  MkFib _ (MkC (c_mem (f_stk _ x)) (c_top (f_stk _ x) + 1) (c_base (f_stk _ x))) (f_ip _ x + 1) (f_regs _ x) (f_parent _ x) (f_alive _ x).
(** From [v] to [w], the running fiber becomes [x'], fiber [t] runs next, and nothing else changes. *)
Definition switched (v w : vm cstk) (x' : fiber cstk) (t : nat) : Prop :=
  loopf _ w = t /\ vmf _ w = t /\ getF _ w (loopf _ v) = Ok x' /\ (forall g, g <> loopf _ v -> getF _ w g = getF _ v g) /\ hosts _ w = hosts _ v /\ gm _ w = gm _ v.

(** ** Small programs *)
(** The instructions of a program in the order of their addresses, from 1. *)
Definition program (l : list (Z * list instr)) (ip : Z) : option instr :=
  match find (fun p => (fst p <=? ip) && (ip <? fst p + Z.of_nat (length (snd p)))) l with
  | Some (a, is) => nth_error is (Z.to_nat (ip - a))
  | None => None
  end.
Definition noExt : nat -> list val -> hostprog := fun _ _ => HRet (VZ 0).
Definition after {St} (o : sops St) code ext (n : nat) (v : vm St) : vm St := match run _ o code ext n v with Ok (Go _ w) => w | _ => v end.

(** From [v] to [w], fiber [f] becomes [x], the external functions waiting become [h], and nothing else changes. *)
Definition becomes (v w : vm astk) (f : nat) (x : fiber astk) (h : list (nat * Z * (val -> hostprog))) : Prop :=
  loopf _ w = f /\ vmf _ w = vmf _ v /\ getF _ w f = Ok x /\ (forall g, g <> f -> getF _ w g = getF _ v g) /\ hosts _ w = h /\ gm _ w = gm _ v.
(** Fiber [x] with other operands, at another instruction, with other registers. *)
Definition fiberAt (x : fiber astk) (ops : list val) (ip : Z) (regs : list val) : fiber astk :=
  MkFib _ (MkA (a_size (f_stk _ x)) (set_ops (a_stk (f_stk _ x)) ops)) ip regs (f_parent _ x) (f_alive _ x).
Definition opsOf (x : fiber astk) : list val := sops_of (a_stk (f_stk _ x)).
Definition setResult (w : val) (regs : list val) : list val := match regs with [] => [] | _ :: r => w :: r end.

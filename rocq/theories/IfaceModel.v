(** Interfaces. Source: /repo/src/umka_decl.c, /repo/src/umka_expr.c, /repo/src/umka_vm.c.

    Simplified: a cell is 8 bytes, the size of a pointer and of a method's entry point, so field [i] of an interface is cell [i]. Types of receivers
    and signatures are abstract. Reference counts and the copy of the result to a temporary variable are left out. Variables and the temporaries
    allocated by identAllocStack are kept apart. Every compile error is [Err EOther]. *)
From Coq Require Import ZArith Lia Bool List.
From Verif Require Import Base.
Import ListNotations.
Local Open Scope Z_scope.

Section Iface.
(** [T]: pointer types, as in the field #selftype; [S]: types of methods. *)
Variables T S : Type.
(** Method of a type by name (identFind with a receiver type): entry point and type. *)
Variable find : T -> nat -> option (Z * S).
(** The type is ^null. *)
Variable isNull : T -> bool.
(** typeCompatible for methods; it is typeEquivalent: /repo/src/umka_types.c:506-518. *)
Variable compat : S -> S -> bool.
(** typeEquivalent for pointer types. *)
Variable equiv : T -> T -> bool.
(** Methods of the interface types that have a name. *)
Variable tab : nat -> list (nat * S).

(** Interface types: the fields after #self and #selftype. *)
Inductive iface := INamed (id : nat) | IAnon (l : list (nat * S)).
Definition meths (i : iface) : list (nat * S) := match i with INamed id => tab id | IAnon l => l end.

(** typeFindField: /repo/src/umka_types.c (typeFindField). The names #self and #selftype are no identifiers. Returns the index among the methods. *)
Fixpoint findField (l : list (nat * S)) (n : nat) : option (nat * S) :=
  match l with
  | [] => None
  | (m, s) :: l => if Nat.eqb m n then Some (O, s) else match findField l n with Some (k, s) => Some (1 + k, s)%nat | None => None end
  end.
(** typeAddField: /repo/src/umka_types.c (typeAddField). *)
Definition addField (l : list (nat * S)) (n : nat) (s : S) : outcome (list (nat * S)) :=
  match findField l n with Some _ => Err EOther | None => Ok (l ++ [(n, s)]) end.
Fixpoint addFields (l : list (nat * S)) (r : list (nat * S)) : outcome (list (nat * S)) :=
  match r with [] => Ok l | (n, s) :: r => let* l := addField l n s in addFields l r end.
(** parseInterfaceType: /repo/src/umka_decl.c:440-494. *)
Inductive item := IMethod (n : nat) (s : S) | IEmbed (i : iface).
Fixpoint parseInterface (l : list (nat * S)) (its : list item) : outcome (list (nat * S)) :=
  match its with
  | [] => Ok l
  | IMethod n s :: its => let* l := addField l n s in parseInterface l its
  | IEmbed i :: its => let* l := addFields l (meths i) in parseInterface l its
  end.

(** typeEquivalent for interface types: /repo/src/umka_types.c:380-450. *)
Fixpoint sameFields (a b : list (nat * S)) : bool :=
  match a, b with
  | [], [] => true
  | (n, s) :: a, (m, r) :: b => Nat.eqb n m && compat s r && sameFields a b
  | _, _ => false
  end.
Definition teq (a b : iface) : bool :=
  match a, b with INamed x, INamed y => Nat.eqb x y | _, _ => sameFields (meths a) (meths b) end.

(** Slots. The null pointer and the missing entry point are 0. *)
Inductive val := VInt (z : Z) | VPtr (p : nat) | VType (t : T) | VVar (k : nat) | VTmp (k : nat).
Inductive instr := IInt (z : Z) | IVal (v : val) | IType (t : T) | IVar (k : nat) | ITmp (k : nat) | ISwapAssign | IDup | IDeref | IField (k : nat)
  | IPop | IPopSelf | IPushSelf | IPushResult | IAssert (t : T) | ICall (n : nat).

(** * Code *)
(** doPtrToInterfaceConv, methods: /repo/src/umka_expr.c:379-409. [k] is the cell of the next field. *)
Fixpoint convPtrMeths (t : T) (k : nat) (l : list (nat * S)) : outcome (list instr) :=
  match l with
  | [] => Ok []
  | (n, s) :: l =>
      let* e := if isNull t then Ok 0
                else match find t n with
                     | None => Err EOther
                     | Some (e, s') => if compat s s' then Ok e else Err EOther
                     end in
      let* c := convPtrMeths t (k + 1) l in
      Ok ([IInt e; ITmp k; ISwapAssign] ++ c)
  end.
(** doPtrToInterfaceConv: /repo/src/umka_expr.c:354-415. *)
Definition convPtr (t : T) (dest : iface) (off : nat) : outcome (list instr) :=
  let* c := convPtrMeths t (off + 2) (meths dest) in
  Ok ([ITmp off; ISwapAssign; IType t; ITmp (off + 1); ISwapAssign] ++ c ++ [ITmp off]).
(** doInterfaceToInterfaceConv: /repo/src/umka_expr.c:418-467. *)
Fixpoint convIfaceMeths (src : list (nat * S)) (k : nat) (l : list (nat * S)) : outcome (list instr) :=
  match l with
  | [] => Ok []
  | (n, s) :: l =>
      match findField src n with
      | None => Err EOther
      | Some (j, s') =>
          if compat s s' then
            let* c := convIfaceMeths src (k + 1) l in
            Ok ([IDup; IField (2 + j); IDeref; ITmp k; ISwapAssign] ++ c)
          else Err EOther
      end
  end.
Definition convIface (src dest : iface) (off : nat) : outcome (list instr) :=
  let* c := convIfaceMeths (meths src) (off + 2) (meths dest) in
  Ok ([IDup; IDeref; ITmp off; ISwapAssign; IDup; IField 1; IDeref; ITmp (off + 1); ISwapAssign] ++ c ++ [IPop; ITmp off]).
Definition width (i : iface) : nat := (2 + length (meths i))%nat.

(** Expressions with an interface or pointer value: a pointer of static type [t], an interface variable, a conversion to an interface.
    A value that is not a pointer is copied to the heap first and the pointer to it is converted: /repo/src/umka_expr.c:470-479. *)
Inductive source := SPtr (p : val) (t : T) | SVar (k : nat) (i : iface) | SConv (dest : iface) (s : source).
Inductive stype := TyPtr (t : T) | TyI (i : iface).
Definition staticType (s : source) : stype := match s with SPtr _ t => TyPtr t | SVar _ i => TyI i | SConv d _ => TyI d end.
(** doImplicitTypeConvEx, to an interface: /repo/src/umka_expr.c:624-646. [next] is the next free temporary cell. *)
Fixpoint genSource (s : source) (next : nat) : outcome (list instr * nat) :=
  match s with
  | SPtr p _ => Ok ([IVal p], next)
  | SVar k _ => Ok ([IVar k], next)
  | SConv d s =>
      let* (c, next) := genSource s next in
      match staticType s with
      | TyPtr t => let* c' := convPtr t d next in Ok (c ++ c', (next + width d)%nat)
      | TyI i => if teq d i then Ok (c, next) else let* c' := convIface i d next in Ok (c ++ c', (next + width d)%nat)
      end
  end.

(** Expressions: an integer, and a call of a method of an interface. *)
Inductive expr := EInt (z : Z) | ECall (s : source) (n : nat) (args : exprs)
with exprs := ENil | ECons (e : expr) (l : exprs).
Fixpoint count (l : exprs) : nat := match l with ENil => O | ECons _ l => 1 + count l end%nat.
(** parseFieldSelector: /repo/src/umka_expr.c:2602-2633; parseCallSelector: 2637-2664; parseActualParamsAndCall: 1773-1916 (the entry point is pushed
    by the dereference, the receiver from the register before the parameters). *)
Fixpoint genExpr (e : expr) (next : nat) : outcome (list instr * nat) :=
  match e with
  | EInt z => Ok ([IInt z], next)
  | ECall s n args =>
      let* (c, next) := genSource s next in
      match staticType s with
      | TyPtr _ => Err EOther
      | TyI i =>
          match findField (meths i) n with
          | None => Err EOther
          | Some (j, _) =>
              let* (ca, next) := genArgs args next in
              Ok (c ++ [IDup; IDeref; IPopSelf; IField (2 + j); IDeref; IPushSelf] ++ ca ++ [ICall (1 + count args); IPop; IPushResult], next)
          end
      end
  end
with genArgs (l : exprs) (next : nat) : outcome (list instr * nat) :=
  match l with
  | ENil => Ok ([], next)
  | ECons e l => let* (c, next) := genExpr e next in let* (c', next) := genArgs l next in Ok (c ++ c', next)
  end.

(** * Machine *)
(** Called functions get the parameters, receiver first, change the variables and the register REG_SELF and give a result. *)
Variable eff : Z -> list val -> (nat -> val) -> (nat -> val) * val * val.
Record state := St { stk : list val; vars : nat -> val; tmps : nat -> val; self : val; result : val; log : list (Z * list val) }.
Definition upd (m : nat -> val) (k : nat) (v : val) (x : nat) : val := if Nat.eqb x k then v else m x.
Definition push (s : state) (v : val) (r : list val) : state := St (v :: r) (vars s) (tmps s) (self s) (result s) (log s).
(** The cell a pointer points to: doDerefImpl, /repo/src/umka_vm.c. *)
Definition load (s : state) (v : val) : outcome val :=
  match v with
  | VVar k => Ok (vars s k)
  | VTmp k => Ok (tmps s k)
  | VInt 0 => Err ENull
  | _ => UB
  end.
(** doAssertType: /repo/src/umka_vm.c:3724-3731. *)
Definition assertType (s : state) (t : T) (v : val) : outcome val :=
  let at1 := match v with VVar k => Some (vars s k, vars s (k + 1)%nat) | VTmp k => Some (tmps s k, tmps s (k + 1)%nat) | _ => None end in
  match at1 with
  | None => UB
  | Some (p, VType t') => Ok (if equiv t t' then p else VInt 0)
  | Some (p, VInt 0) => Ok (VInt 0)
  | Some _ => UB
  end.
(** The instructions: /repo/src/umka_vm.c (doPush..., doDup, doDeref, doAssign, doGetFieldPtr, doPopReg, doPushReg), 3724-3731, doCallIndirect. *)
Definition step (i : instr) (s : state) : outcome state :=
  match i, stk s with
  | IInt z, r => Ok (push s (VInt z) r)
  | IVal v, r => Ok (push s v r)
  | IType t, r => Ok (push s (VType t) r)
  | IVar k, r => Ok (push s (VVar k) r)
  | ITmp k, r => Ok (push s (VTmp k) r)
  | ISwapAssign, VTmp k :: v :: r => Ok (St r (vars s) (upd (tmps s) k v) (self s) (result s) (log s))
  | IDup, v :: r => Ok (push s v (v :: r))
  | IDeref, v :: r => let* x := load s v in Ok (push s x r)
  | IField k, VVar j :: r => Ok (push s (VVar (j + k)) r)
  | IField k, VTmp j :: r => Ok (push s (VTmp (j + k)) r)
  | IField _, VInt 0 :: r => Err ENull
  | IPop, _ :: r => Ok (St r (vars s) (tmps s) (self s) (result s) (log s))
  | IPopSelf, v :: r => Ok (St r (vars s) (tmps s) v (result s) (log s))
  | IPushSelf, r => Ok (push s (self s) r)
  | IPushResult, r => Ok (push s (result s) r)
  | IAssert t, v :: r => let* x := assertType s t v in Ok (push s x r)
  | ICall n, r =>
      match nth_error r n with
      | Some (VInt e) =>
          if e =? 0 then Err EIllegalFn
          else
            let ps := rev (firstn n r) in
            let '(vs, x, v) := eff e ps (vars s) in
            Ok (St (skipn n r) vs (tmps s) x v (log s ++ [(e, ps)]))
      | _ => UB
      end
  | _, _ => UB
  end.
Fixpoint exec (c : list instr) (s : state) : outcome state :=
  match c with [] => Ok s | i :: c => let* s := step i s in exec c s end.
End Iface.

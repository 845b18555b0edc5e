(** Closures: the code of closure literals, of calls and of function bodies with captured variables. Source: /repo/src/umka_expr.c, /repo/src/umka_stmt.c.

    Simplified: variables are integers and closures; all functions are closure literals and return a value; a variable takes whole slots (1 for an
    integer, 3 for a closure: the entry point and an interface of two slots); the slots of a function's frame are numbered from its last parameter
    and are not reused after a block (C24); jumps are structured instructions (C32); an entry point is a position in a list of functions, plus 1;
    reference counts, and the copies of results that exist only for them, are left out (C42, C61), as is the size of the stack (C35). *)
From Coq Require Import ZArith Lia Bool List.
From Verif Require Import Base.
Import ListNotations.
Local Open Scope Z_scope.

Inductive ty := TInt | TFn (ps : list ty) (r : ty).
Fixpoint ty_eqb (a b : ty) : bool :=
  match a, b with
  | TInt, TInt => true
  | TFn ps r, TFn qs s => (fix go l m := match l, m with [], [] => true | x :: l, y :: m => ty_eqb x y && go l m | _, _ => false end) ps qs && ty_eqb r s
  | _, _ => false
  end.
(** typeStructured, and the size in slots: /repo/src/umka_api.h:105-109. *)
Definition structured (t : ty) : bool := match t with TInt => false | TFn _ _ => true end.
Definition size (t : ty) : nat := match t with TInt => 1 | TFn _ _ => 3 end.
Definition sizes (l : list ty) : nat := fold_right (fun t n => size t + n)%nat 0%nat l.

(** Expressions: a number, a variable, sums, comparisons, a call, and a closure literal fn (ps): r |caps| {b}. Statements: var x: t; x := e; x = e; e; a block;
    if; for with a condition only; return e. *)
Inductive expr := ENum (z : Z) | EVar (x : nat) | EAdd (a b : expr) | ELess (a b : expr) | ECall (f : expr) (a : args)
  | EFn (caps : list nat) (ps : list (nat * ty)) (r : ty) (b : stmt)
with args := ANil | ACons (e : expr) (a : args)
with stmt := SSkip | SSeq (a b : stmt) | SVar (x : nat) (t : ty) | SDecl (x : nat) (e : expr) | SSet (x : nat) (e : expr) | SExpr (e : expr)
  | SBlock (s : stmt) | SIf (c : expr) (a b : stmt) | SWhile (c : expr) (b : stmt) | SReturn (e : expr).

(** The contents of a slot: a number, a pointer to a slot of a block, the type of a structure of captured variables. *)
Inductive val := VZ (z : Z) | VPtr (b o : nat) | VTag (ts : list ty).
Inductive instr :=
  | IPush (v : val) | ILocal (n : nat) | IGlobal (n : nat) | IDeref | IField (k : nat) | IAdd | ILess | IZero (k : nat)
  | IAssign (swap : bool) (k : option nat)      (* Some k: a structured value of k slots *)
  | IUpvalue | IParam (k : nat) | ICall (k : nat) | IPushRes | IPopRes | IDup | IPop
  | IEscape (k : nat)                           (* doEscapeToHeap: /repo/src/umka_expr.c:117-127 *)
  | ICheck (ts : list ty)                       (* OP_ASSERT_TYPE and OP_DEREF *)
  | IIf (a b : list instr) | ILoop (c b : list instr) | IReturn.
Notation code := (list instr).
(** A function: the slots of its parameters, those of its local variables, and its code. *)
Record fcode := Fc { f_params : nat; f_locals : nat; f_code : code }.

(** ** The compiler *)
Inductive place := PLoc (n : nat) | PGlob (n : nat).
Definition env := list (nat * (place * ty)).
Fixpoint find {A} (x : nat) (l : list (nat * A)) : option A := match l with [] => None | (y, a) :: l => if Nat.eqb x y then Some a else find x l end.
(** The next free slot and the functions compiled so far. *)
Record cst := Cst { cnext : nat; ctab : list fcode }.
Definition alloc (k : nat) (c : cst) : nat * cst := (cnext c, Cst (cnext c + k) (ctab c)).

(** doPushVarPtr: /repo/src/umka_expr.c:32-38; with OP_DEREF, which leaves the pointer for a structured variable. *)
Definition ptr (p : place) : code := match p with PLoc n => [ILocal n] | PGlob n => [IGlobal n] end.
Definition load (p : place) (t : ty) : code := ptr p ++ (if structured t then [] else [IDeref]).
Definition arg (t : ty) : option nat := if structured t then Some (size t) else None.
(** doZeroVar: /repo/src/umka_stmt.c:52-61. *)
Definition zeroVar (n k : nat) : code := [ILocal n; IZero k].

(** "Assign upvalues structure fields": /repo/src/umka_expr.c:2327-2339. *)
Fixpoint capCode (m off : nat) (l : list (place * ty)) : code :=
  match l with [] => [] | (p, t) :: l => [ILocal m; IField off] ++ load p t ++ [IAssign false (arg t)] ++ capCode m (off + size t) l end.
(** "Copy upvalue structure fields to new local variables": /repo/src/umka_stmt.c:1315-1330, the first of them at slot [v]. *)
Fixpoint upCode (off v : nat) (l : list ty) : code :=
  match l with
  | [] => []
  | t :: l => [IDup; IField off] ++ (if structured t then [] else [IDeref]) ++ zeroVar v (size t) ++ [ILocal v; IAssign true (arg t)] ++ upCode (off + size t) (v + size t) l
  end.

(** The slots of a function, from the last parameter: the pointer to the result, if structured; the parameters, the last one first; the
    captured variables as an interface (/repo/src/umka_types.c, typeParamOffset; /repo/src/umka_ident.c, identAllocParam); their copies. *)
Definition resSlots (r : ty) : nat := if structured r then 1 else 0.
Fixpoint paramEnv (rs : nat) (ps : list (nat * ty)) : env :=
  match ps with [] => [] | (x, t) :: ps => (x, (PLoc (rs + sizes (map snd ps)), t)) :: paramEnv rs ps end.
Fixpoint upEnv (v : nat) (l : list (nat * ty)) : env := match l with [] => [] | (x, t) :: l => (x, (PLoc v, t)) :: upEnv (v + size t) l end.
Definition upSlot (ps : list (nat * ty)) (r : ty) : nat := resSlots r + sizes (map snd ps).
Definition paramSlots (ps : list (nat * ty)) (r : ty) : nat := upSlot ps r + 2.
Definition fnEnv (caps ps : list (nat * ty)) (r : ty) : env := rev (upEnv (paramSlots ps r) caps) ++ rev (paramEnv (resSlots r) ps).
Definition fnStart (caps ps : list (nat * ty)) (r : ty) : nat := paramSlots ps r + sizes (map snd caps).
(** "Upvalues" of parseFnBlock: /repo/src/umka_stmt.c:1303-1333. *)
Definition prologue (caps ps : list (nat * ty)) (r : ty) : code :=
  match caps with
  | [] => []
  | _ => [ILocal (upSlot ps r); ICheck (map snd caps)] ++ upCode 0 (paramSlots ps r) (map snd caps) ++ [IPop]
  end.
(** parseFnBlock: /repo/src/umka_stmt.c:1273-1367, around the code [p] of the statements, which need slots up to [n]. *)
Definition fnCode (caps ps : list (nat * ty)) (r : ty) (p : code) (n : nat) : fcode := Fc (paramSlots ps r) (n - paramSlots ps r) (prologue caps ps r ++ p).
(** parseClosureLiteral: /repo/src/umka_expr.c:2285-2382, with the structure of captured variables at [m], its interface at [q]
    (doPtrToInterfaceConv, 365-378) and the closure at [n]. *)
Definition closureCode (n m q e : nat) (caps : list (place * ty)) : code :=
  zeroVar n 3 ++
  match caps with
  | [] => []
  | _ =>
      zeroVar m (sizes (map snd caps)) ++ capCode m 0 caps ++
      [ILocal n; IField 1; ILocal m; IEscape (sizes (map snd caps)); ILocal q; IAssign true None; IPush (VTag (map snd caps)); ILocal (q + 1); IAssign true None; ILocal q; IAssign false (Some 2%nat)]
  end ++
  [ILocal n; IField 0; IPush (VZ (Z.of_nat e + 1)); IAssign false None; ILocal n].
(** #result: /repo/src/umka_expr.c:1882-1891. *)
Definition resultCode (n : nat) (r : ty) : code := if structured r then zeroVar n 3 ++ [ILocal n] else [].
(** parseReturnStmt: /repo/src/umka_stmt.c:1161-1211. *)
Definition returnCode (r : ty) : code := (if structured r then [ILocal 0; IDeref; IAssign true (Some 3%nat); ILocal 0; IDeref] else []) ++ [IPopRes; IReturn].

Section Compile.
Variable genv : env.
Fixpoint mapM {A B} (f : A -> option B) (l : list A) : option (list B) :=
  match l with [] => Some [] | a :: l => match f a, mapM f l with Some b, Some m => Some (b :: m) | _, _ => None end end.
(** parseExpr and below. A call: /repo/src/umka_expr.c:1773-1904, 2637-2660. The result: code that leaves an integer or a pointer to a closure. *)
Fixpoint cexpr (en : env) (e : expr) (c : cst) : outcome (code * ty * cst) :=
  match e with
  | ENum z => Ok ([IPush (VZ z)], TInt, c)
  | EVar x => match find x (en ++ genv) with Some (p, t) => Ok (load p t, t, c) | None => Err EOther end
  | EAdd a b =>
      let* (ra, c) := cexpr en a c in
      let* (rb, c) := cexpr en b c in
      match ra, rb with (p, TInt), (q, TInt) => Ok (p ++ q ++ [IAdd], TInt, c) | _, _ => Err EOther end
  | ELess a b =>
      let* (ra, c) := cexpr en a c in
      let* (rb, c) := cexpr en b c in
      match ra, rb with (p, TInt), (q, TInt) => Ok (p ++ q ++ [ILess], TInt, c) | _, _ => Err EOther end
  | ECall f a =>
      let* (rf, c) := cexpr en f c in
      match rf with
      | (p, TFn ts r) =>
          let* (q, c) := cargs en a ts c in
          let (n, c) := alloc (if structured r then 3 else 0) c in
          Ok (p ++ [IUpvalue; IParam 2] ++ q ++ resultCode n r ++ [ICall (resSlots r + sizes ts + 2); IPop; IPushRes], r, c)
      | _ => Err EOther
      end
  | EFn caps ps r b =>
      match mapM (fun x => find x (en ++ genv)) caps with
      | Some l =>
          let ts := map snd l in
          let (n, c) := alloc 3 c in
          let (m, c) := alloc (sizes ts) c in
          let (q, c) := alloc 2 c in
          let* (pb, cb) := cstmt r (fnEnv (combine caps ts) ps r) b (Cst (fnStart (combine caps ts) ps r) (ctab c)) in
          Ok (closureCode n m q (length (ctab cb)) l, TFn (map snd ps) r, Cst (cnext c) (ctab cb ++ [fnCode (combine caps ts) ps r (fst pb) (cnext cb)]))
      | None => Err EOther
      end
  end
(** doPassParam: /repo/src/umka_expr.c:107-114. *)
with cargs (en : env) (a : args) (ts : list ty) (c : cst) : outcome (code * cst) :=
  match a, ts with
  | ANil, [] => Ok ([], c)
  | ACons e a, t :: ts =>
      let* (r, c) := cexpr en e c in
      if ty_eqb (snd r) t then
        let* (q, c) := cargs en a ts c in Ok (fst r ++ (if structured t then [IParam (size t)] else []) ++ q, c)
      else Err EOther
  | _, _ => Err EOther
  end
(** parseStmt and below: code and the variables declared. Declarations: /repo/src/umka_stmt.c:315-334, /repo/src/umka_decl.c:642-660; assignment:
    /repo/src/umka_stmt.c:193-217. [res]: the result of the function. *)
with cstmt (res : ty) (en : env) (s : stmt) (c : cst) : outcome (code * env * cst) :=
  match s with
  | SSkip => Ok ([], en, c)
  | SSeq a b => let* (ra, c) := cstmt res en a c in let* (rb, c) := cstmt res (snd ra) b c in Ok (fst ra ++ fst rb, snd rb, c)
  | SVar x t => let (n, c) := alloc (size t) c in Ok (zeroVar n (size t), (x, (PLoc n, t)) :: en, c)
  | SDecl x e =>
      let* (r, c) := cexpr en e c in
      let (n, c) := alloc (size (snd r)) c in Ok (fst r ++ [ILocal n; IAssign true (arg (snd r))], (x, (PLoc n, snd r)) :: en, c)
  | SSet x e =>
      match find x (en ++ genv) with
      | Some (p, t) => let* (r, c) := cexpr en e c in if ty_eqb (snd r) t then Ok (ptr p ++ fst r ++ [IAssign false (arg t)], en, c) else Err EOther
      | None => Err EOther
      end
  | SExpr e => let* (r, c) := cexpr en e c in Ok (fst r ++ [IPop], en, c)
  | SBlock s => let* (r, c) := cstmt res en s c in Ok (fst r, en, c)
  | SIf q a b =>
      let* (rq, c) := cexpr en q c in
      match rq with
      | (p, TInt) =>
          let* (ra, c) := cstmt res en a c in
          let* (rb, c) := cstmt res en b c in Ok (p ++ [IIf (fst ra) (fst rb)], en, c)
      | _ => Err EOther
      end
  | SWhile q b =>
      let* (rq, c) := cexpr en q c in
      match rq with
      | (p, TInt) => let* (rb, c) := cstmt res en b c in Ok ([ILoop p (fst rb)], en, c)
      | _ => Err EOther
      end
  | SReturn e => let* (r, c) := cexpr en e c in if ty_eqb (snd r) res then Ok (fst r ++ returnCode res, en, c) else Err EOther
  end.
End Compile.

(** Global variables one after the other. *)
Fixpoint globalEnv (n : nat) (l : list (nat * ty)) : env := match l with [] => [] | (x, t) :: l => (x, (PGlob n, t)) :: globalEnv (n + size t) l end.
(** A program: its global variables and the body of main, which returns an integer here. *)
Definition compile (gs : list (nat * ty)) (b : stmt) : outcome (fcode * list fcode) :=
  let* (r, c) := cstmt (globalEnv 0 gs) TInt [] b (Cst (fnStart [] [] TInt) []) in Ok (fnCode [] [] TInt (fst r) (cnext c), ctab c).

(** ** The machine *)
(** A block of memory: a heap chunk, a stack frame or the global variables (block 0). A frame is emptied when it is left. *)
Record block := Blk { bheap : bool; bdata : list val }.
Record st := St { mem : list block; stk : list val; reg : val; fr : nat }.
Fixpoint setn {A} (l : list A) (n : nat) (a : A) : list A := match l, n with [], _ => [] | _ :: l, O => a :: l | b :: l, S n => b :: setn l n a end.
Definition read (M : list block) (b o : nat) : outcome val :=
  match nth_error M b with Some B => match nth_error (bdata B) o with Some v => Ok v | None => UB end | None => UB end.
Definition write (M : list block) (b o : nat) (v : val) : outcome (list block) :=
  match nth_error M b with Some B => if Nat.ltb o (length (bdata B)) then Ok (setn M b (Blk (bheap B) (setn (bdata B) o v))) else UB | None => UB end.
Fixpoint reads (M : list block) (b o k : nat) : outcome (list val) :=
  match k with O => Ok [] | S k => let* v := read M b o in let* l := reads M b (S o) k in Ok (v :: l) end.
Fixpoint writes (M : list block) (b o : nat) (l : list val) : outcome (list block) :=
  match l with [] => Ok M | v :: l => let* M := write M b o v in writes M b (S o) l end.
(** doAssignImpl: /repo/src/umka_vm.c. *)
Definition store (M : list block) (lhs rhs : val) (k : option nat) : outcome (list block) :=
  match lhs with
  | VPtr b o => match k with
                | None => write M b o rhs
                | Some k => match rhs with VPtr b2 o2 => let* l := reads M b2 o2 k in writes M b o l | VZ 0 => Err ENull | _ => UB end
                end
  | VZ 0 => Err ENull
  | _ => UB
  end.

Section Exec.
Variable tab : list fcode.
Variable callf : fcode -> st -> outcome st.
Variable lim : nat.        (* iterations of a loop *)
Definition push (v : val) (s : st) : st := St (mem s) (v :: stk s) (reg s) (fr s).
(** One instruction; true: a return statement was executed. Stack operations: /repo/src/umka_vm.c:3090-3243; calls: 3844-3856. *)
Fixpoint xi (i : instr) (s : st) {struct i} : outcome (st * bool) :=
  let xs := fix xs (c : code) (s : st) {struct c} : outcome (st * bool) :=
    match c with [] => Ok (s, false) | i :: c => let* (s, r) := xi i s in if r then Ok (s, true) else xs c s end in
  let M := mem s in
  match i, stk s with
  | IPush v, _ => Ok (push v s, false)
  | ILocal n, _ => Ok (push (VPtr (fr s) n) s, false)
  | IGlobal n, _ => Ok (push (VPtr 0 n) s, false)
  | IDeref, VPtr b o :: l => let* v := read M b o in Ok (St M (v :: l) (reg s) (fr s), false)
  | IField k, VPtr b o :: l => Ok (St M (VPtr b (o + k) :: l) (reg s) (fr s), false)
  | IAdd, VZ b :: VZ a :: l => let* z := chk64 (a + b) in Ok (St M (VZ z :: l) (reg s) (fr s), false)
  | ILess, VZ b :: VZ a :: l => Ok (St M (VZ (b2z (a <? b)) :: l) (reg s) (fr s), false)
  | IZero k, VPtr b o :: l => let* M := writes M b o (repeat (VZ 0) k) in Ok (St M l (reg s) (fr s), false)
  | IAssign swap k, a :: b :: l =>
      let* M := if swap then store M a b k else store M b a k in Ok (St M l (reg s) (fr s), false)
  | IUpvalue, VPtr b o :: l => let* e := read M b o in Ok (St M (VPtr b (S o) :: e :: l) (reg s) (fr s), false)
  | IParam k, VPtr b o :: l => let* p := reads M b o k in Ok (St M (p ++ l) (reg s) (fr s), false)
  | ICall k, l =>
      match nth_error l k with
      | Some (VZ e) =>
          if e =? 0 then Err EIllegalFn
          else match nth_error tab (Z.to_nat (e - 1)) with Some f => let* s := callf f s in Ok (s, false) | None => UB end
      | _ => UB
      end
  | IPushRes, _ => Ok (push (reg s) s, false)
  | IPopRes, v :: l => Ok (St M l v (fr s), false)
  | IDup, v :: l => Ok (St M (v :: v :: l) (reg s) (fr s), false)
  | IPop, _ :: l => Ok (St M l (reg s) (fr s), false)
  | IEscape k, VPtr b o :: l => let* p := reads M b o k in Ok (St (M ++ [Blk true p]) (VPtr (length M) 0 :: l) (reg s) (fr s), false)
  | ICheck ts, VPtr b o :: l =>
      let* self := read M b o in
      let* tag := read M b (S o) in
      match tag with
      | VTag us => if ty_eqb (TFn ts TInt) (TFn us TInt) then Ok (St M (self :: l) (reg s) (fr s), false) else Err ENull
      | _ => Err ENull
      end
  | IIf a b, VZ z :: l => if z =? 0 then xs b (St M l (reg s) (fr s)) else xs a (St M l (reg s) (fr s))
  | ILoop c b, _ =>
      (fix loop n (s : st) : outcome (st * bool) :=
         match n with
         | O => Err EFuel
         | S n =>
             let* (s, _) := xs c s in
             match stk s with
             | VZ z :: l =>
                 let s := St (mem s) l (reg s) (fr s) in
                 if z =? 0 then Ok (s, false) else let* (s, r) := xs b s in if r then Ok (s, true) else loop n s
             | _ => UB
             end
         end) lim s
  | IReturn, _ => Ok (s, true)
  | _, _ => UB
  end.
Fixpoint exec (c : code) (s : st) {struct c} : outcome (st * bool) :=
  match c with [] => Ok (s, false) | i :: c => let* (s, r) := xi i s in if r then Ok (s, true) else exec c s end.
End Exec.

(** A call with its frame: /repo/src/umka_vm.c:3984-4052. At most [n] nested calls. *)
Fixpoint callN (tab : list fcode) (n : nat) (f : fcode) (s : st) : outcome st :=
  match n with
  | O => Err EFuel
  | S m =>
      let b := length (mem s) in
      let frame := firstn (f_params f) (stk s) ++ repeat (VZ 0) (f_locals f) in
      let* (s1, _) := exec tab (callN tab m) m (f_code f) (St (mem s ++ [Blk false frame]) [] (reg s) b) in
      Ok (St (setn (mem s1) b (Blk false [])) (skipn (f_params f) (stk s)) (reg s1) (fr s))
  end.
(** The host calls main: the result and the global variables. *)
Definition start (gs : list (nat * ty)) : st := St [Blk false (repeat (VZ 0) (sizes (map snd gs)))] [VZ 0; VZ 0] (VZ 0) 0.
Definition runMain (gs : list (nat * ty)) (b : stmt) (n : nat) : outcome (val * list val) :=
  let* (f, tab) := compile gs b in
  let* s := callN tab n f (start gs) in
  match mem s with B :: _ => Ok (reg s, bdata B) | [] => UB end.

(** Code for operands and assignments, and its execution. Source: /repo/src/umka_expr.c, /repo/src/umka_stmt.c, /repo/src/umka_vm.c.

    Memory consists of blocks of cells. Blocks of variables and hidden temporary variables are static; heap blocks carry a reference count and
    are dead once released. A cell holds an integer or a reference to a heap block. Simplified: one cell per integer, pointer or dynamic array
    header; strings, maps, interfaces and closures are left out; functions are called with one integer and return one; type conversions, the
    temporary variables for results of calls and the peephole optimizer (C31) are left out. *)
From Coq Require Import ZArith Lia Bool List.
From Verif Require Import Base.
Import ListNotations.
Local Open Scope Z_scope.

Inductive val := VI (z : Z) | VR (r : option nat).
Definition val_eq_dec (a b : val) : {a = b} + {a <> b}.
Proof. decide equality; [apply Z.eq_dec | decide equality; apply Nat.eq_dec]. Defined.
(** [bcnt] is [None] for static blocks. *)
Record block := Blk { bcells : list val; bcnt : option Z; blive : bool }.
Definition mem := list block.
Definition addr : Type := nat * nat.

(** The types of operands: int; ^T; []int, a structured type whose header holds the reference to the items; a structure of n cells,
    [g] if it contains references. *)
Inductive ty := TInt | TPtr | TDyn | TRec (n : nat) (g : bool).
Definition size (t : ty) : nat := match t with TRec n _ => n | _ => 1 end.
(** isGarbageCollected: /repo/src/umka_types.h:160, 426-427. *)
Definition gc (t : ty) : bool := match t with TInt => false | TRec _ g => g | _ => true end.
(** typeStructured: /repo/src/umka_types.h:300-304. A structured operand is on the stack as the address where it is. *)
Definition structured (t : ty) : bool := match t with TDyn | TRec _ _ => true | _ => false end.

Definition getBlock (m : mem) (b : nat) : outcome block := match nth_error m b with Some k => if blive k then Ok k else UB | None => UB end.
Fixpoint setNth {A} (l : list A) (i : nat) (x : A) : list A := match l, i with [], _ => [] | _ :: r, O => x :: r | y :: r, S i => y :: setNth r i x end.
Definition load (m : mem) (a : addr) (n : nat) : outcome (list val) :=
  let* k := getBlock m (fst a) in if Nat.leb (snd a + n) (length (bcells k)) then Ok (firstn n (skipn (snd a) (bcells k))) else UB.
Definition store (m : mem) (a : addr) (vs : list val) : outcome mem :=
  let* k := getBlock m (fst a) in
  if Nat.leb (snd a + length vs) (length (bcells k)) then
    Ok (setNth m (fst a) (Blk (firstn (snd a) (bcells k) ++ vs ++ skipn (snd a + length vs) (bcells k)) (bcnt k) (blive k)))
  else UB.

(** doRefCntImpl with TOK_PLUSPLUS and TOK_MINUSMINUS: /repo/src/umka_vm.c:1218-1390, for the references in some cells (see RefModel.v). *)
Definition refs (vs : list val) : list nat := flat_map (fun v => match v with VR (Some b) => [b] | _ => [] end) vs.
Definition inc1 (m : mem) (b : nat) : outcome mem :=
  let* k := getBlock m b in Ok (match bcnt k with None => m | Some c => setNth m b (Blk (bcells k) (Some (c + 1)) true) end).
Fixpoint incs (m : mem) (l : list nat) : outcome mem := match l with [] => Ok m | b :: l => let* m := inc1 m b in incs m l end.
Fixpoint decs (fuel : nat) (m : mem) (l : list nat) {struct fuel} : outcome mem :=
  match l with
  | [] => Ok m
  | b :: l =>
      match fuel with
      | O => Err EFuel
      | S fuel =>
          let* k := getBlock m b in
          match bcnt k with
          | None => decs fuel m l
          | Some c =>
              if c =? 1 then decs fuel (setNth m b (Blk (bcells k) (Some 0) false)) (refs (bcells k) ++ l)
              else decs fuel (setNth m b (Blk (bcells k) (Some (c - 1)) true)) l
          end
      end
  end.

(** Stack slots: values, and addresses of cells. *)
Inductive slot := SV (v : val) | SA (a : addr).
Definition asAddr (s : slot) : outcome addr := match s with SA a => Ok a | SV (VR (Some b)) => Ok (b, O) | SV (VR None) => Err ENull | SV (VI _) => UB end.
Definition asVal (s : slot) : outcome val := match s with SV v => Ok v | SA _ => UB end.
Definition asInt (v : val) : outcome Z := match v with VI z => Ok z | VR _ => UB end.
Definition asRef (v : val) : outcome (option nat) := match v with VR r => Ok r | VI _ => UB end.

(** Instructions. [IPtr] is OP_PUSH_LOCAL_PTR or OP_PUSH with the address of a global variable. *)
Inductive instr :=
| IPush (z : Z) | IPtr (a : addr) | IDeref (t : ty) | IField (k : nat) | IDynPtr | IBinary (op : nat) | IEq (t : ty) | ICall (f : nat)
| IRefCntAssign (t : ty) | ISwapRefCntAssign (t : ty) | ISwapAssign (t : ty) | IRefCnt (t : ty) | IZero (n : nat) | IDup | IPop | IPopReg | IPushReg.

Section Run.
(** Binary operators on integers, and functions, which may change the memory and fail. *)
Variable binop : nat -> Z -> Z -> outcome Z.
Variable fenv : nat -> mem -> Z -> outcome (mem * Z).
Variable fuel : nat.

(** doDerefImpl: /repo/src/umka_vm.c:977-1015. A structured operand stays an address. *)
Definition deref (m : mem) (s : slot) (t : ty) : outcome slot :=
  let* a := asAddr s in
  if structured t then Ok s else let* l := load m a 1 in match l with [v] => Ok (SV v) | _ => UB end.
(** The cells of an operand. *)
Definition cellsOf (m : mem) (s : slot) (t : ty) : outcome (list val) :=
  if structured t then let* a := asAddr s in load m a (size t) else let* v := asVal s in Ok [v].
(** The references counted for cells of a type. *)
Definition trefs (t : ty) (vs : list val) : list nat := if gc t then refs vs else [].
(** doRefCntAssign: /repo/src/umka_vm.c:3288-3317, and doAssign (3206-3223) for a type without references, as chosen by genRefCntAssign and
    genSwapRefCntAssign: /repo/src/umka_gen.c:707-728. The right operand is read again after the old value has been released. *)
Definition refCntAssign (m : mem) (lhs rhs : slot) (t : ty) : outcome mem :=
  let* vs := cellsOf m rhs t in
  let* m := incs m (trefs t vs) in
  let* a := asAddr lhs in
  let* old := load m a (size t) in
  let* m := decs fuel m (trefs t old) in
  let* vs := cellsOf m rhs t in
  store m a vs.

Record mach := Mach { mmem : mem; mstk : list slot; mreg : slot }.
(** One instruction. doGetDynArrayPtr: /repo/src/umka_vm.c:3644-3675 (see C14); doGetFieldPtr: 3708-3722; doZero: 3190-3196; the others: 3000-3320. *)
Definition step (i : instr) (s : mach) : outcome mach :=
  let m := mmem s in let r := mreg s in
  match i, mstk s with
  | IPush z, k => Ok (Mach m (SV (VI z) :: k) r)
  | IPtr a, k => Ok (Mach m (SA a :: k) r)
  | IDeref t, x :: k => let* y := deref m x t in Ok (Mach m (y :: k) r)
  | IField n, x :: k => let* a := asAddr x in Ok (Mach m (SA (fst a, snd a + n)%nat :: k) r)
  | IDynPtr, x :: y :: k =>
      let* v := asVal x in let* i := asInt v in
      let* a := asAddr y in let* l := load m a 1 in
      match l with
      | [h] =>
          let* d := asRef h in
          match d with
          | None => Err ENull
          | Some b =>
              let* bl := getBlock m b in
              if (i <? 0) || (Z.of_nat (length (bcells bl)) <=? i) then Err EIndex else Ok (Mach m (SA (b, Z.to_nat i) :: k) r)
          end
      | _ => UB
      end
  | IBinary op, x :: y :: k =>
      let* v := asVal x in let* w := asVal y in let* b := asInt v in let* a := asInt w in
      let* z := binop op a b in Ok (Mach m (SV (VI z) :: k) r)
  | IEq t, x :: y :: k =>
      let* vs := cellsOf m y t in let* ws := cellsOf m x t in
      Ok (Mach m (SV (VI (if list_eq_dec val_eq_dec vs ws then 1 else 0)) :: k) r)
  | ICall f, x :: k => let* v := asVal x in let* z := asInt v in let* p := fenv f m z in Ok (Mach (fst p) (SV (VI (snd p)) :: k) r)
  | IRefCntAssign t, x :: y :: k => let* m := refCntAssign m y x t in Ok (Mach m k r)
  | ISwapRefCntAssign t, x :: y :: k => let* m := refCntAssign m x y t in Ok (Mach m k r)
  | ISwapAssign t, x :: y :: k => let* a := asAddr x in let* vs := cellsOf m y t in let* m := store m a vs in Ok (Mach m k r)
  | IRefCnt t, x :: k => let* vs := cellsOf m x t in let* m := incs m (trefs t vs) in Ok (Mach m (x :: k) r)
  | IZero n, x :: k => let* a := asAddr x in let* m := store m a (repeat (VI 0) n) in Ok (Mach m k r)
  | IDup, x :: k => Ok (Mach m (x :: x :: k) r)
  | IPop, _ :: k => Ok (Mach m k r)
  | IPopReg, x :: k => Ok (Mach m k x)
  | IPushReg, k => Ok (Mach m (r :: k) r)
  | _, _ => UB
  end.
Fixpoint exec (l : list instr) (s : mach) : outcome mach := match l with [] => Ok s | i :: l => let* s := step i s in exec l s end.
End Run.

(** Source. A variable is a static block. A field is an integer or pointer at an offset. *)
Inductive des := DVar (x : nat) | DFld (d : des) (k : nat) | DIdx (d : des) (e : expr) | DDeref (d : des)
with expr := EInt (z : Z) | ERead (d : des) (t : ty) | EBin (op : nat) (a b : expr) | EEq (a b : expr) | ECall (f : nat) (a : expr).
Definition ety (e : expr) : ty := match e with ERead _ t => t | _ => TInt end.

(** parsePrimary (IDENT_VAR), parseFieldSelector, parseIndexSelector, parseDerefSelector, parseFactor, parseTerm and parseRelation, parseCallSelector:
    /repo/src/umka_expr.c:1921-1974, 2570-2633, 2485-2566, 2455-2481, 2764-2800, 2915-2986, 2637-2664. *)
Fixpoint compDes (d : des) : list instr :=
  match d with
  | DVar x => [IPtr (x, O)]
  | DFld d k => compDes d ++ [IField k]
  | DIdx d e => compDes d ++ compExpr e ++ [IDynPtr]
  | DDeref d => compDes d ++ [IDeref TPtr]
  end
with compExpr (e : expr) : list instr :=
  match e with
  | EInt z => [IPush z]
  | ERead d t => compDes d ++ (if structured t then [] else [IDeref t])
  | EBin op a b => compExpr a ++ compExpr b ++ [IBinary op]
  | EEq a b => compExpr a ++ compExpr b ++ [IEq (ety a)]
  | ECall f a => compExpr a ++ [ICall f]
  end.

(** Statements: d = e; d1, ..., dn = e1, ..., en; d op= e; x := e. [t] is the hidden variable of the list. *)
Inductive stmt := SAsg (d : des) (e : expr) | SList (t : nat) (l : list (des * expr)) | SShort (d : des) (op : nat) (e : expr) | SDecl (x : nat) (e : expr).
Fixpoint offsets (o : nat) (l : list expr) : list nat := match l with [] => [] | e :: l => o :: offsets (o + size (ety e)) l end.
Fixpoint total (l : list expr) : nat := match l with [] => O | e :: l => (size (ety e) + total l)%nat end.
(** parseExprList: /repo/src/umka_expr.c:3171-3254. All expressions are evaluated, then stored into the hidden variable, the last first. *)
Definition compList (t : nat) (es : list expr) : list instr :=
  concat (map compExpr es) ++ [IPtr (t, O); IZero (total es)]
  ++ concat (rev (map (fun p => [IPtr (t, fst p); ISwapRefCntAssign (ety (snd p))]) (combine (offsets 0 es) es))) ++ [IPtr (t, O)].
(** parseListAssignmentStmt: /repo/src/umka_stmt.c:220-279, the last first. *)
Definition compListAsg (es : list expr) : list instr :=
  concat (rev (map (fun p => [IDup; IPopReg; IField (fst p)] ++ [IDeref (ety (snd p))] ++ [IRefCntAssign (ety (snd p)); IPushReg]) (combine (offsets 0 es) es))) ++ [IPop].
(** parseSingleAssignmentStmt, parseShortAssignmentStmt, parseSingleDeclAssignmentStmt: /repo/src/umka_stmt.c:191-217, 291-314, 318-341. *)
Definition comp (s : stmt) : list instr :=
  match s with
  | SAsg d e => compDes d ++ compExpr e ++ [IRefCntAssign (ety e)]
  | SList t l => concat (map (fun p => compDes (fst p)) l) ++ compList t (map snd l) ++ compListAsg (map snd l)
  | SShort d op e => compDes d ++ [IDup; IDeref TInt] ++ compExpr e ++ [IBinary op; IRefCntAssign TInt]
  | SDecl x e => compExpr e ++ [IRefCnt (ety e); IPtr (x, O); ISwapAssign (ety e)]
  end.

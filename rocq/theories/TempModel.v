(** Temporaries and the release of references at the ends of scopes. Source: /repo/src/umka_stmt.c, /repo/src/umka_expr.c, /repo/src/umka_ident.c.

    Simplified: values are integers and references to objects that hold no references themselves (strings); a value takes one slot; identifiers are
    kept by block instead of in one list; jumps are structured instructions (C32); functions are called by number (C57); a copy of a call result to
    a temporary is kept apart from the code before it, so that removing it (genTryRemoveCopyResultToTempVar, /repo/src/umka_gen.c:1181-1200) needs
    no look at the last instructions; closures, pointers to variables, structured types, switches and for-in loops are left out. *)
From Coq Require Import ZArith Lia Bool List.
From Verif Require Import Base.
Import ListNotations.
Local Open Scope Z_scope.

(** Expressions: an integer; the empty string; a local and a global variable; a call; a new object of given contents; the length of an object; a string
    concatenation; a comparison of integers; short circuits; and the conditional operator. *)
Inductive expr :=
  | ENum (z : Z) | EEmpty | ELocal (x : nat) | EGlobal (g : nat) | ECall (f : nat) (a : args) | ENew (l : list Z) | ELen (e : expr) | ECat (a b : expr)
  | ELess (a b : expr) | EAnd (a b : expr) | EOr (a b : expr) | ECond (c a b : expr)
with args := ANil | ACons (e : expr) (a : args).
(** Statements: declaration x := e, assignments, a call, a block, if with a declaration, for with a declaration and a post statement, and jumps. *)
Inductive stmt :=
  | SSkip | SSeq (a b : stmt) | SDecl (x : nat) (e : expr) | SSet (x : nat) (e : expr) | SSetGlobal (g : nat) (e : expr) | SCall (f : nat) (a : args)
  | SBlock (s : stmt) | SIf (init : stmt) (c : expr) (a b : stmt) | SFor (init : stmt) (c : expr) (post body : stmt)
  | SBreak | SContinue | SReturn (e : option expr).
(** A function: for each parameter, and for the result if any, whether it is a reference. *)
Record fn := Fn { fparams : list bool; fresult : option bool; fbody : stmt }.

Inductive value := VInt (z : Z) | VRef (o : option nat).
Definition isRef (v : value) : bool := match v with VRef _ => true | VInt _ => false end.

(** Instructions. [IStore] is OP_PUSH_LOCAL_PTR and OP_SWAP_ASSIGN; [ISetRC] and [ISetGRC] are OP_REF_CNT_ASSIGN to a local and a global variable,
    [ISetL] and [ISetGL] the same with "--", which does not increase the count of the right side; [IInc] is OP_REF_CNT with "++" on the top of the stack;
    [IRel] is OP_REF_CNT_LOCAL with "--". *)
Inductive instr :=
  | IPush (v : value) | ILocal (n : nat) | IGlobal (g : nat) | IDup | IPop
  | IStore (n : nat) | ISetRC (n : nat) | ISetL (n : nat) | ISetG (g : nat) | ISetGRC (g : nat) | ISetGL (g : nat)
  | IInc | IRel (n : nat) | INew (l : list Z) | ILen | ICat | ILess
  | ICall (f : nat) | IPushRes | IPopRes
  | IIf (a b : list instr) | IShort (isAnd : bool) (c : list instr) | ILoop (cond post body : list instr)
  | IBreak | IContinue | IReturn.
Notation code := (list instr).

(** An identifier: /repo/src/umka_ident.h (Ident). A temporary has no name. *)
Record ident := Id { iname : option nat; islot : nat; igc : bool; iused : bool }.
(** The next free slot of the frame and the open blocks, innermost first, with their identifiers, latest first. *)
Record cst := Cst { cnext : nat; cblks : list (list ident) }.

(** identAllocVar and identAllocTempVar: /repo/src/umka_ident.c:312-370, with the check of identAdd: 191-214. *)
Definition sameName (x : option nat) (i : ident) : bool := match x, iname i with Some x, Some y => Nat.eqb x y | _, _ => false end.
Definition allocVar (x : option nat) (gc : bool) (c : cst) : outcome (nat * cst) :=
  match cblks c with
  | [] => Err EOther
  | b :: l => if existsb (sameName x) b then Err EOther else Ok (cnext c, Cst (S (cnext c)) ((Id x (cnext c) gc true :: b) :: l))
  end.
(** identFind among local variables: /repo/src/umka_ident.c:67-98. *)
Fixpoint lookup (x : nat) (l : list ident) : option ident := match l with [] => None | i :: l => if sameName (Some x) i then Some i else lookup x l end.
(** doTryRemoveCopyResultToTempVar: /repo/src/umka_expr.c:48-65. *)
Definition unuseIn (n : nat) (b : list ident) : list ident := map (fun i => if Nat.eqb (islot i) n then Id (iname i) (islot i) (igc i) false else i) b.
Definition unuse (n : nat) (c : cst) : cst := Cst (cnext c) (match cblks c with [] => [] | b :: l => unuseIn n b :: l end).

Definition enter (c : cst) : cst := Cst (cnext c) ([] :: cblks c).
Definition leave (c : cst) : cst := Cst (cnext c) (tl (cblks c)).
Definition top (c : cst) : list ident := hd [] (cblks c).
(** doGarbageCollectionAt: /repo/src/umka_stmt.c:15-34. *)
Definition release (b : list ident) : code := flat_map (fun i => if igc i && iused i then [IRel (islot i)] else []) b.
(** doGarbageCollectionDownToBlock: /repo/src/umka_stmt.c:44-49, down to block [k], counted from the outermost. *)
Definition releaseTo (k : nat) (c : cst) : code := flat_map release (firstn (length (cblks c) - k) (cblks c)).

(** The code of an expression; the temporary its result has just been copied to; whether it is a reference. *)
Record eres := Res { epre : code; etmp : option nat; egc : bool }.
(** doCopyResultToTempVar: /repo/src/umka_expr.c:41-45, /repo/src/umka_gen.c:1171-1178. *)
Definition keep (r : eres) : code := epre r ++ match etmp r with Some n => [IDup; IStore n] | None => [] end.
(** doTryOptimizeIncRefCnt: /repo/src/umka_expr.c:68-76. *)
Definition own (r : eres) (c : cst) : code * cst :=
  match etmp r with Some n => (epre r, unuse n c) | None => (epre r ++ (if egc r then [IInc] else []), c) end.

Section Compile.
Variable gty : list bool.                            (** global variables: whether they are references *)
Variable sigs : list (list bool * option bool).      (** parameters and result of each function *)

(** parseExpr and below: /repo/src/umka_expr.c. Calls: 1773-1904, 2640-2663; variables: 1930-1945; concatenation: 751-770; short circuits: 2989-3073;
    conditional operator: 3077-3160. *)
Fixpoint cexpr (e : expr) (c : cst) : outcome (eres * cst) :=
  match e with
  | ENum z => Ok (Res [IPush (VInt z)] None false, c)
  | EEmpty => Ok (Res [IPush (VRef None)] None true, c)
  | ELocal x => match lookup x (concat (cblks c)) with Some i => Ok (Res [ILocal (islot i)] None (igc i), c) | None => Err EOther end
  | EGlobal g => match nth_error gty g with Some gc => Ok (Res [IGlobal g] None gc, c) | None => Err EOther end
  | ECall f a =>
      match nth_error sigs f with
      | Some (ps, Some gc) =>
          let* (p, c) := cargs a ps c in
          if gc then let* (n, c) := allocVar None true c in Ok (Res (p ++ [ICall f; IPushRes]) (Some n) true, c)
          else Ok (Res (p ++ [ICall f; IPushRes]) None false, c)
      | _ => Err EOther
      end
  | ENew l => let* (n, c) := allocVar None true c in Ok (Res [INew l] (Some n) true, c)
  | ELen e => let* (r, c) := cexpr e c in if egc r then Ok (Res (keep r ++ [ILen]) None false, c) else Err EOther
  | ECat a b =>
      let* (ra, c) := cexpr a c in
      let* (rb, c) := cexpr b c in
      if egc ra && egc rb then let* (n, c) := allocVar None true c in Ok (Res (keep ra ++ keep rb ++ [ICat]) (Some n) true, c) else Err EOther
  | ELess a b =>
      let* (ra, c) := cexpr a c in
      let* (rb, c) := cexpr b c in
      if egc ra || egc rb then Err EOther else Ok (Res (keep ra ++ keep rb ++ [ILess]) None false, c)
  | EAnd a b =>
      let* (ra, c) := cexpr a c in
      let* (rb, c) := cexpr b (enter c) in
      if egc ra || egc rb then Err EOther else Ok (Res (keep ra ++ [IShort true (keep rb ++ release (top c))]) None false, leave c)
  | EOr a b =>
      let* (ra, c) := cexpr a c in
      let* (rb, c) := cexpr b (enter c) in
      if egc ra || egc rb then Err EOther else Ok (Res (keep ra ++ [IShort false (keep rb ++ release (top c))]) None false, leave c)
  | ECond q a b =>
      let* (rq, c) := cexpr q c in
      if egc rq then Err EOther
      else
        let* (ra, ca) := cexpr a (enter c) in
        if egc ra then
          let* (n, c) := allocVar None true (leave ca) in
          let* (rb, cb) := cexpr b (enter c) in
          if egc rb then Ok (Res (keep rq ++ [IIf (keep ra ++ [IDup; IInc; IStore n] ++ release (top ca)) (keep rb ++ [IDup; IInc; IStore n] ++ release (top cb))]) None true, leave cb)
          else Err EOther
        else
          let* (rb, cb) := cexpr b (enter (leave ca)) in
          if egc rb then Err EOther
          else Ok (Res (keep rq ++ [IIf (keep ra ++ release (top ca)) (keep rb ++ release (top cb))]) None false, leave cb)
  end
(** parseActualParamsAndCall, doPassParam: /repo/src/umka_expr.c:1822-1858, 107-115. *)
with cargs (a : args) (ps : list bool) (c : cst) : outcome (code * cst) :=
  match a, ps with
  | ANil, [] => Ok ([], c)
  | ACons e a, p :: ps =>
      let* (r, c) := cexpr e c in
      if eqb (egc r) p then
        let (k, c) := own r c in
        let* (q, c) := cargs a ps c in Ok (k ++ q, c)
      else Err EOther
  | _, _ => Err EOther
  end.

Definition isDecl (s : stmt) : bool := match s with SSkip | SDecl _ _ => true | _ => false end.
Definition isSimple (s : stmt) : bool := match s with SSkip | SDecl _ _ | SSet _ _ | SSetGlobal _ _ | SCall _ _ => true | _ => false end.

(** parseStmt and below: /repo/src/umka_stmt.c:193-217, 315-335, 437-530, 788-860, 1075-1283. [res]: the result of the function; [lp]: the block of the
    innermost loop. The block of the function is block 1. *)
Fixpoint cstmt (res : option bool) (s : stmt) (lp : option nat) (c : cst) : outcome (code * cst) :=
  match s with
  | SSkip => Ok ([], c)
  | SSeq a b => let* (p, c) := cstmt res a lp c in let* (q, c) := cstmt res b lp c in Ok (p ++ q, c)
  | SDecl x e =>
      let* (r, c) := cexpr e c in
      let* (n, c) := allocVar (Some x) (egc r) c in
      match etmp r with
      | Some t => Ok (epre r ++ [IStore n], unuse t c)
      | None => Ok (epre r ++ (if egc r then [IInc] else []) ++ [IStore n], c)
      end
  | SSet x e =>
      match lookup x (concat (cblks c)) with
      | Some i =>
          let* (r, c) := cexpr e c in
          if negb (eqb (egc r) (igc i)) then Err EOther
          else match etmp r with
               | Some t => Ok (epre r ++ [ISetL (islot i)], unuse t c)
               | None => Ok (epre r ++ [if egc r then ISetRC (islot i) else IStore (islot i)], c)
               end
      | None => Err EOther
      end
  | SSetGlobal g e =>
      match nth_error gty g with
      | Some gc =>
          let* (r, c) := cexpr e c in
          if negb (eqb (egc r) gc) then Err EOther
          else match etmp r with
               | Some t => Ok (epre r ++ [ISetGL g], unuse t c)
               | None => Ok (epre r ++ [if egc r then ISetGRC g else ISetG g], c)
               end
      | None => Err EOther
      end
  | SCall f a =>
      match nth_error sigs f with
      | Some (_, Some _) => let* (r, c) := cexpr (ECall f a) c in Ok (keep r ++ [IPop], c)
      | Some (ps, None) => let* (p, c) := cargs a ps c in Ok (p ++ [ICall f], c)
      | None => Err EOther
      end
  | SBlock s => let* (p, c) := cstmt res s lp (enter c) in Ok (p ++ release (top c), leave c)
  | SIf i q a b =>
      if negb (isDecl i) then Err EOther
      else
        let* (pi, c) := cstmt res i None (enter c) in
        let* (rq, c) := cexpr q c in
        if egc rq then Err EOther
        else
          let* (pa, ca) := cstmt res a lp (enter c) in
          let* (pb, cb) := cstmt res b lp (enter (leave ca)) in
          let c := leave cb in
          Ok (pi ++ keep rq ++ [IIf (pa ++ release (top ca)) (pb ++ release (top cb))] ++ release (top c), leave c)
  | SFor i q post body =>
      if negb (isDecl i && isSimple post) then Err EOther
      else
        let* (pi, c) := cstmt res i None (enter c) in
        let* (rq, cq) := cexpr q (enter c) in
        if egc rq then Err EOther
        else
          let* (pp, cp) := cstmt res post None (enter (leave cq)) in
          let* (pb, cb) := cstmt res body (Some (length (cblks c))) (enter (leave cp)) in
          let c := leave cb in
          Ok (pi ++ [ILoop (keep rq ++ release (top cq)) (pp ++ release (top cp)) (pb ++ release (top cb))] ++ release (top c), leave c)
  | SBreak => match lp with Some k => Ok (releaseTo k c ++ [IBreak], c) | None => Err EOther end
  | SContinue => match lp with Some k => Ok (releaseTo k c ++ [IContinue], c) | None => Err EOther end
  | SReturn None => match res with None => Ok (releaseTo 1 c ++ [IReturn], c) | Some _ => Err EOther end
  | SReturn (Some e) =>
      match res with
      | None => Err EOther
      | Some gc =>
          let* (r, c) := cexpr e c in
          if negb (eqb (egc r) gc) then Err EOther
          else let (p, c) := own r c in Ok (p ++ [IPopRes] ++ releaseTo 1 c ++ [IReturn], c)
      end
  end.

(** The statement list of the function itself has a return: /repo/src/umka_stmt.c:1164, 1351, 1378. *)
Fixpoint hasReturn (s : stmt) : bool := match s with SReturn _ => true | SSeq a b => hasReturn a || hasReturn b | _ => false end.
(** Parameters are variables of the function's block, in the first slots. *)
Fixpoint paramIdents (k : nat) (l : list bool) : list ident := match l with [] => [] | gc :: l => Id (Some k) k gc true :: paramIdents (S k) l end.
(** parseFnBlock: /repo/src/umka_stmt.c:1275-1380: the code up to the place where returns jump to, and the code from there. *)
Definition cfn (f : fn) : outcome (code * code) :=
  let ps := paramIdents 0 (fparams f) in
  let* (p, c) := cstmt (fresult f) (fbody f) None (Cst (length (fparams f)) [[]; ps]) in
  match fresult f with
  | Some _ => if hasReturn (fbody f) then Ok (p ++ release (top c), release (top (leave c))) else Err EOther
  | None => Ok (p ++ release (top c), release (top (leave c)))
  end.
End Compile.
Definition sigOf (f : fn) : list bool * option bool := (fparams f, fresult f).
Fixpoint mapM {A B} (f : A -> outcome B) (l : list A) : outcome (list B) :=
  match l with [] => Ok [] | x :: l => let* y := f x in let* m := mapM f l in Ok (y :: m) end.
Definition compile (gty : list bool) (p : list fn) : outcome (list (nat * (code * code))) :=
  mapM (fun f => let* k := cfn gty (map sigOf p) f in Ok (length (fparams f), k)) p.

(** The machine: evaluation stack, slots of the frame, global variables, reference counts and contents of objects, number of the next object, result register. *)
Record st := St { stk : list value; slots : nat -> value; globs : list value; cnt : nat -> Z; ostr : nat -> list Z; onext : nat; res : value }.
Definition withStk (s : st) l := St l (slots s) (globs s) (cnt s) (ostr s) (onext s) (res s).
Definition setSlot (s : st) n v := St (stk s) (fun m => if Nat.eqb m n then v else slots s m) (globs s) (cnt s) (ostr s) (onext s) (res s).
Fixpoint replace (l : list value) (i : nat) (v : value) : list value := match l, i with [], _ => [] | _ :: l, O => v :: l | x :: l, S i => x :: replace l i v end.
Definition setGlob (s : st) g v := St (stk s) (slots s) (replace (globs s) g v) (cnt s) (ostr s) (onext s) (res s).
Definition setCnt (s : st) o z := St (stk s) (slots s) (globs s) (fun p => if Nat.eqb p o then z else cnt s p) (ostr s) (onext s) (res s).
Definition setRes (s : st) v := St (stk s) (slots s) (globs s) (cnt s) (ostr s) (onext s) v.
Definition newObj (s : st) (l : list Z) := St (stk s) (slots s) (globs s) (fun p => if Nat.eqb p (onext s) then 1 else cnt s p) (fun p => if Nat.eqb p (onext s) then l else ostr s p) (S (onext s)) (res s).

(** doRefCntImpl for an object without references: /repo/src/umka_vm.c:1218-1330. A count of 0 means that the object has been released. *)
Definition incRef (v : value) (s : st) : outcome st :=
  match v with VRef None => Ok s | VRef (Some o) => if 0 <? cnt s o then Ok (setCnt s o (cnt s o + 1)) else UB | VInt _ => UB end.
Definition decRef (v : value) (s : st) : outcome st :=
  match v with VRef None => Ok s | VRef (Some o) => if 0 <? cnt s o then Ok (setCnt s o (cnt s o - 1)) else UB | VInt _ => UB end.
Definition textOf (v : value) (s : st) : outcome (list Z) :=
  match v with VRef None => Ok [] | VRef (Some o) => if 0 <? cnt s o then Ok (ostr s o) else UB | VInt _ => UB end.

(** One instruction without jumps or calls: /repo/src/umka_vm.c:3095-3320. *)
Definition step (i : instr) (s : st) : outcome st :=
  match i, stk s with
  | IPush v, l => Ok (withStk s (v :: l))
  | ILocal n, l => Ok (withStk s (slots s n :: l))
  | IGlobal g, l => match nth_error (globs s) g with Some v => Ok (withStk s (v :: l)) | None => UB end
  | IDup, v :: l => Ok (withStk s (v :: v :: l))
  | IPop, v :: l => Ok (withStk s l)
  | IStore n, v :: l => Ok (setSlot (withStk s l) n v)
  | ISetRC n, v :: l => let* s := incRef v s in let* s := decRef (slots s n) s in Ok (setSlot (withStk s l) n v)
  | ISetL n, v :: l => let* s := decRef (slots s n) s in Ok (setSlot (withStk s l) n v)
  | ISetG g, v :: l => if Nat.ltb g (length (globs s)) then Ok (setGlob (withStk s l) g v) else UB
  | ISetGRC g, v :: l => match nth_error (globs s) g with
                         | Some w => let* s := incRef v s in let* s := decRef w s in Ok (setGlob (withStk s l) g v)
                         | None => UB end
  | ISetGL g, v :: l => match nth_error (globs s) g with Some w => let* s := decRef w s in Ok (setGlob (withStk s l) g v) | None => UB end
  | IInc, v :: l => incRef v s
  | IRel n, l => decRef (slots s n) s
  | INew t, l => Ok (withStk (newObj s t) (VRef (Some (onext s)) :: l))
  | ILen, v :: l => let* t := textOf v s in Ok (withStk s (VInt (Z.of_nat (length t)) :: l))
  | ICat, w :: v :: l => let* a := textOf v s in let* b := textOf w s in Ok (withStk (newObj s (a ++ b)) (VRef (Some (onext s)) :: l))
  | ILess, VInt b :: VInt a :: l => Ok (withStk s (VInt (if a <? b then 1 else 0) :: l))
  | IPushRes, l => Ok (withStk s (res s :: l))
  | IPopRes, v :: l => Ok (setRes (withStk s l) v)
  | _, _ => UB
  end.
Inductive signal := Next | Brk | Cnt | Ret.
Section Run.
Variable funs : list (nat * (code * code)).
(** vmRun on structured code. A call: /repo/src/umka_vm.c:3833-3841, 3984-4060: parameters become the first slots of a new frame, other slots are zero. *)
Fixpoint exec (fuel : nat) (p : code) (s : st) : outcome (st * signal) :=
  match fuel with
  | O => Err EFuel
  | S fuel =>
      match p with
      | [] => Ok (s, Next)
      | IBreak :: _ => Ok (s, Brk)
      | IContinue :: _ => Ok (s, Cnt)
      | IReturn :: _ => Ok (s, Ret)
      | IIf a b :: q =>
          match stk s with
          | VInt z :: l => let* (s, g) := exec fuel (if z =? 0 then b else a) (withStk s l) in match g with Next => exec fuel q s | _ => Ok (s, g) end
          | _ => UB
          end
      | IShort isAnd c :: q =>
          match stk s with
          | VInt z :: l => if eqb (z =? 0) isAnd then exec fuel q s
                           else let* (s, g) := exec fuel c (withStk s l) in match g with Next => exec fuel q s | _ => Ok (s, g) end
          | _ => UB
          end
      | ILoop c post b :: q =>
          let* (s, g) := exec fuel c s in
          match g, stk s with
          | Next, VInt z :: l =>
              if z =? 0 then exec fuel q (withStk s l)
              else
                let* (s, g) := exec fuel b (withStk s l) in
                match g with
                | Brk => exec fuel q s
                | Ret => Ok (s, Ret)
                | _ => let* (s, g) := exec fuel post s in match g with Next => exec fuel p s | _ => UB end
                end
          | _, _ => UB
          end
      | ICall f :: q =>
          match nth_error funs f with
          | Some (n, (body, ending)) =>
              if Nat.ltb (length (stk s)) n then UB
              else
                let* (s1, g) := exec fuel body (St [] (fun i => nth i (rev (firstn n (stk s))) (VInt 0)) (globs s) (cnt s) (ostr s) (onext s) (res s)) in
                match g with
                | Next | Ret =>
                    let* (s2, g) := exec fuel ending s1 in
                    match g, stk s2 with
                    | Next, [] => exec fuel q (St (skipn n (stk s)) (slots s) (globs s2) (cnt s2) (ostr s2) (onext s2) (res s2))
                    | _, _ => UB
                    end
                | _ => UB
                end
          | None => UB
          end
      | i :: q => let* s := step i s in exec fuel q s
      end
  end.
End Run.
(** A whole program: main is function 0. *)
Definition start (gty : list bool) : st := St [] (fun _ => VInt 0) (map (fun gc : bool => if gc then VRef None else VInt 0) gty) (fun _ => 0) (fun _ => []) 0%nat (VInt 0).
Definition run (gty : list bool) (p : list fn) (fuel : nat) : outcome (st * signal) :=
  let* funs := compile gty p in exec funs fuel [ICall 0] (start gty).

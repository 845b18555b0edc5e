(** Specification for CloModel.v: what programs with closures mean. A closure holds the values its captured variables had when it was made. A call
    starts with these values in variables of its own. *)
From Coq Require Import ZArith Lia Bool List.
From Verif Require Import Base CloModel.
Import ListNotations.
Local Open Scope Z_scope.

Inductive sval := SInt (z : Z) | SNull | SClo (caps : list (nat * sval)) (ps : list (nat * ty)) (b : stmt).
Notation vars := (list (nat * sval)).
Fixpoint update (x : nat) (v : sval) (l : vars) : option vars :=
  match l with [] => None | (y, w) :: l => if Nat.eqb x y then Some ((y, v) :: l) else match update x v l with Some m => Some ((y, w) :: m) | None => None end end.
Definition zero (t : ty) : sval := match t with TInt => SInt 0 | TFn _ _ => SNull end.

Section Source.
Variable callS : sval -> list sval -> vars -> outcome (sval * vars).
Variable lim : nat.
(** The value of an expression with local variables [L], and the global variables after it. Err EOther: the program is ill-typed. *)
Fixpoint ev (L : vars) (e : expr) (G : vars) : outcome (sval * vars) :=
  match e with
  | ENum z => Ok (SInt z, G)
  | EVar x => match find x (L ++ G) with Some v => Ok (v, G) | None => Err EOther end
  | EAdd a b =>
      let* (v, G) := ev L a G in
      let* (w, G) := ev L b G in
      match v, w with SInt x, SInt y => if in_s64b (x + y) then Ok (SInt (x + y), G) else UB | _, _ => Err EOther end
  | ELess a b =>
      let* (v, G) := ev L a G in
      let* (w, G) := ev L b G in
      match v, w with SInt x, SInt y => Ok (SInt (if x <? y then 1 else 0), G) | _, _ => Err EOther end
  | ECall f a => let* (v, G) := ev L f G in let* (l, G) := evs L a G in callS v l G
  | EFn caps ps _ b => match mapM (fun x => find x (L ++ G)) caps with Some l => Ok (SClo (combine caps l) ps b, G) | None => Err EOther end
  end
with evs (L : vars) (a : args) (G : vars) : outcome (list sval * vars) :=
  match a with
  | ANil => Ok ([], G)
  | ACons e a => let* (v, G) := ev L e G in let* (l, G) := evs L a G in Ok (v :: l, G)
  end.
(** A statement: the local and global variables after it, and the result if it returns. *)
Fixpoint ex (s : stmt) (L G : vars) : outcome (vars * vars * option sval) :=
  match s with
  | SSkip => Ok (L, G, None)
  | SSeq a b => let* (r, o) := ex a L G in match o with Some _ => Ok (r, o) | None => ex b (fst r) (snd r) end
  | SVar x t => Ok ((x, zero t) :: L, G, None)
  | SDecl x e => let* (v, G) := ev L e G in Ok ((x, v) :: L, G, None)
  | SSet x e =>
      let* (v, G) := ev L e G in
      match update x v L with
      | Some L => Ok (L, G, None)
      | None => match update x v G with Some G => Ok (L, G, None) | None => Err EOther end
      end
  | SExpr e => let* (_, G) := ev L e G in Ok (L, G, None)
  | SBlock s => let* (r, o) := ex s L G in Ok (skipn (length (fst r) - length L) (fst r), snd r, o)
  | SIf c a b =>
      let* (v, G) := ev L c G in
      match v with
      | SInt z => let* (r, o) := (if z =? 0 then ex b L G else ex a L G) in Ok (skipn (length (fst r) - length L) (fst r), snd r, o)
      | _ => Err EOther
      end
  | SWhile c b =>
      (fix loop n (L G : vars) : outcome (vars * vars * option sval) :=
         match n with
         | O => Err EFuel
         | S n =>
             let* (v, G) := ev L c G in
             match v with
             | SInt z =>
                 if z =? 0 then Ok (L, G, None)
                 else let* (r, o) := ex b L G in
                      let L := skipn (length (fst r) - length L) (fst r) in
                      match o with Some _ => Ok (L, snd r, o) | None => loop n L (snd r) end
             | _ => Err EOther
             end
         end) lim L G
  | SReturn e => let* (v, G) := ev L e G in Ok (L, G, Some v)
  end.
End Source.

(** A call, with at most [n] calls within each other. A function that ends without a return statement has no meaning. *)
Fixpoint callV (n : nat) (f : sval) (l : list sval) (G : vars) : outcome (sval * vars) :=
  match f with
  | SNull => Err EIllegalFn
  | SClo caps ps b =>
      if Nat.eqb (length l) (length ps) then
        match n with
        | O => Err EFuel
        | S m => let* (r, o) := ex (callV m) m b (rev caps ++ rev (combine (map fst ps) l)) G in match o with Some v => Ok (v, snd r) | None => UB end
        end
      else Err EOther
  | SInt _ => Err EOther
  end.
Definition meaning (gs : list (nat * ty)) (b : stmt) (n : nat) : outcome (sval * vars) := callV n (SClo [] [] b) [] (map (fun g => (fst g, zero (snd g))) gs).

(** A statement assigns to a variable called [f]. A closure literal within it assigns at most to its own variables or to global ones. *)
Fixpoint assigns (f : nat) (s : stmt) : bool :=
  match s with
  | SSet x _ => Nat.eqb x f
  | SSeq a b | SIf _ a b => assigns f a || assigns f b
  | SBlock s | SWhile _ s => assigns f s
  | _ => false
  end.
(** A statement contains a return statement, outside of closure literals. *)
Fixpoint returns (s : stmt) : bool :=
  match s with
  | SReturn _ => true
  | SSeq a b | SIf _ a b => returns a || returns b
  | SBlock s | SWhile _ s => returns s
  | _ => false
  end.

(** Programs of a particular form: x := z; f := fn (): int |x| { return x }; { s }; return f(). *)
Definition capture (x f : nat) (z : Z) (s : stmt) : stmt :=
  SSeq (SDecl x (ENum z)) (SSeq (SDecl f (EFn [x] [] TInt (SReturn (EVar x)))) (SSeq (SBlock s) (SReturn (ECall (EVar f) ANil)))).
(** var f: fn (): int; { s }; return f(). *)
Definition nullCall (f : nat) (s : stmt) : stmt := SSeq (SVar f (TFn [] TInt)) (SSeq (SBlock s) (SReturn (ECall (EVar f) ANil))).
(** x := z; f := fn (): int |x| { s }; y := f(); return x. *)
Definition ownCopy (x f y : nat) (z : Z) (s : stmt) : stmt :=
  SSeq (SDecl x (ENum z)) (SSeq (SDecl f (EFn [x] [] TInt s)) (SSeq (SDecl y (ECall (EVar f) ANil)) (SReturn (EVar x)))).

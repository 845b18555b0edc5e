(** What operands and assignments mean: operands are evaluated from left to right, each to its value; then the values are assigned. *)
From Coq Require Import ZArith Lia Bool List.
From Verif Require Import Base EvalModel.
Import ListNotations.
Local Open Scope Z_scope.

Section Sem.
Variable binop : nat -> Z -> Z -> outcome Z.
Variable fenv : nat -> mem -> Z -> outcome (mem * Z).
Variable fuel : nat.

(** A place is an address, or a pointer, perhaps null, whose target is meant. *)
Definition read (m : mem) (p : slot) (n : nat) : outcome (list val) := let* a := asAddr p in load m a n.
Definition one (vs : list val) : outcome val := match vs with [v] => Ok v | _ => UB end.
Definition intOf (vs : list val) : outcome Z := let* v := one vs in asInt v.

(** The array is looked up after its index has been evaluated. *)
Fixpoint semDes (m : mem) (d : des) : outcome (mem * slot) :=
  match d with
  | DVar x => Ok (m, SA (x, O))
  | DFld d k => let* (m, p) := semDes m d in let* a := asAddr p in Ok (m, SA (fst a, snd a + k)%nat)
  | DIdx d e =>
      let* (m, p) := semDes m d in let* (m, vs) := semExpr m e in let* i := intOf vs in
      let* hs := read m p 1 in let* h := one hs in let* r := asRef h in
      match r with
      | None => Err ENull
      | Some b => let* k := getBlock m b in if (0 <=? i) && (i <? Z.of_nat (length (bcells k))) then Ok (m, SA (b, Z.to_nat i)) else Err EIndex
      end
  | DDeref d => let* (m, p) := semDes m d in let* vs := read m p 1 in let* v := one vs in Ok (m, SV v)
  end
with semExpr (m : mem) (e : expr) : outcome (mem * list val) :=
  match e with
  | EInt z => Ok (m, [VI z])
  | ERead d t => let* (m, p) := semDes m d in let* vs := read m p (size t) in Ok (m, vs)
  | EBin op a b =>
      let* (m, xs) := semExpr m a in let* (m, ys) := semExpr m b in let* x := intOf xs in let* y := intOf ys in
      let* z := binop op x y in Ok (m, [VI z])
  | EEq a b => let* (m, xs) := semExpr m a in let* (m, ys) := semExpr m b in Ok (m, [VI (if list_eq_dec val_eq_dec xs ys then 1 else 0)])
  | ECall f a => let* (m, xs) := semExpr m a in let* x := intOf xs in let* (m, z) := fenv f m x in Ok (m, [VI z])
  end.

(** Assigning values: they are counted, the old values are not any more, then the place holds the values. *)
Definition assign (m : mem) (p : slot) (t : ty) (vs : list val) : outcome mem :=
  let* m := incs m (trefs t vs) in
  let* old := read m p (size t) in
  let* m := decs fuel m (trefs t old) in
  let* a := asAddr p in store m a vs.

Fixpoint semDess (m : mem) (l : list des) : outcome (mem * list slot) :=
  match l with [] => Ok (m, []) | d :: l => let* (m, p) := semDes m d in let* (m, ps) := semDess m l in Ok (m, p :: ps) end.
Fixpoint semExprs (m : mem) (l : list expr) : outcome (mem * list (list val)) :=
  match l with [] => Ok (m, []) | e :: l => let* (m, vs) := semExpr m e in let* (m, vss) := semExprs m l in Ok (m, vs :: vss) end.
(** Assigning several values, the last first. *)
Fixpoint assigns (m : mem) (l : list (slot * ty * list val)) : outcome mem :=
  match l with [] => Ok m | (p, t, vs) :: l => let* m := assigns m l in assign m p t vs end.
Fixpoint zip3 (ps : list slot) (ts : list ty) (vss : list (list val)) : list (slot * ty * list val) :=
  match ps, ts, vss with p :: ps, t :: ts, vs :: vss => (p, t, vs) :: zip3 ps ts vss | _, _, _ => [] end.
(** The parts of a variable [t] that holds values of some types one after another. *)
Fixpoint parts (t : nat) (o : nat) (ts : list ty) : list slot := match ts with [] => [] | x :: ts => SA (t, o) :: parts t (o + size x) ts end.

Definition sem (m : mem) (s : stmt) : outcome mem :=
  match s with
  | SAsg d e => let* (m, p) := semDes m d in let* (m, vs) := semExpr m e in assign m p (ety e) vs
  | SList t l =>
      let* (m, ps) := semDess m (map fst l) in let* (m, vss) := semExprs m (map snd l) in
      let ts := map ety (map snd l) in
      (* A hidden variable holds the values too *)
      let* m := store m (t, O) (repeat (VI 0) (total (map snd l))) in
      let* m := assigns m (zip3 (parts t 0 ts) ts vss) in
      assigns m (zip3 ps ts vss)
  | SShort d op e =>
      let* (m, p) := semDes m d in let* xs := read m p 1 in let* (m, ys) := semExpr m e in
      let* x := intOf xs in let* y := intOf ys in let* z := binop op x y in assign m p TInt [VI z]
  | SDecl x e => let* (m, vs) := semExpr m e in let* m := incs m (trefs (ety e) vs) in store m (x, O) vs
  end.
End Sem.

(** Programs without calls in some places. *)
Fixpoint pureD (d : des) : bool := match d with DVar _ => true | DFld d _ => pureD d | DIdx d e => pureD d && pureE e | DDeref d => pureD d end
with pureE (e : expr) : bool := match e with EInt _ => true | ERead d _ => pureD d | EBin _ a b | EEq a b => pureE a && pureE b | ECall _ _ => false end.
(** Part of a variable, not reached through a pointer. *)
Fixpoint direct (d : des) : bool := match d with DVar _ => true | DFld d _ => direct d | _ => false end.
Definition scalar (e : expr) : bool := negb (structured (ety e)).
(** Structured operands are compared with operands without calls; operators and calls take scalars. *)
Fixpoint goodD (d : des) : bool := match d with DVar _ => true | DFld d _ => goodD d | DIdx d e => goodD d && goodE e && scalar e | DDeref d => goodD d end
with goodE (e : expr) : bool :=
  match e with
  | EInt _ => true
  | ERead d _ => goodD d
  | EBin _ a b => goodE a && goodE b && scalar a && scalar b
  | EEq a b => goodE a && goodE b && (scalar a && scalar b || structured (ety a) && (size (ety a) =? size (ety b))%nat && structured (ety b) && pureE b)
  | ECall _ a => goodE a && scalar a
  end.
(** The structured operands are direct. *)
Fixpoint strictD (d : des) : bool := match d with DVar _ => true | DFld d _ => strictD d | DIdx d e => strictD d && strictE e | DDeref d => strictD d end
with strictE (e : expr) : bool :=
  match e with EInt _ => true | ERead d t => strictD d && (negb (structured t) || direct d) | EBin _ a b | EEq a b => strictE a && strictE b | ECall _ a => strictE a end.
(** Which variables are used. *)
Fixpoint usesD (t : nat) (d : des) : bool := match d with DVar x => (x =? t)%nat | DFld d _ => usesD t d | DIdx d e => usesD t d || usesE t e | DDeref d => usesD t d end
with usesE (t : nat) (e : expr) : bool :=
  match e with EInt _ => false | ERead d _ => usesD t d | EBin _ a b | EEq a b => usesE t a || usesE t b | ECall _ a => usesE t a end.

(** An assigned structure with references must be direct. *)
Definition safeRhs (e : expr) : bool := match e with ERead d t => negb (structured t && gc t) || direct d | _ => true end.
(** In lists, a structured expression is followed by expressions without calls. *)
Fixpoint goodList (l : list expr) : bool := match l with [] => true | e :: l => goodE e && (scalar e || forallb pureE l) && goodList l end.
Definition good (s : stmt) : bool :=
  match s with
  | SAsg d e => goodD d && goodE e && safeRhs e
  | SList t l => forallb goodD (map fst l) && goodList (map snd l) && forallb (fun d => negb (usesD t d)) (map fst l) && forallb (fun e => negb (usesE t e)) (map snd l)
  | SShort d _ e => goodD d && goodE e && scalar e
  | SDecl x e => goodE e
  end.
Definition strict (s : stmt) : bool :=
  match s with SAsg d e | SShort d _ e => strictD d && strictE e | SList _ l => forallb strictD (map fst l) && forallb strictE (map snd l) | SDecl _ e => strictE e end.

(** Static blocks are the variables [stat]; no cell refers to a static block. *)
Definition vok (stat : nat -> bool) (v : val) : Prop := match v with VR (Some b) => stat b = false | _ => True end.
Definition tidy (stat : nat -> bool) (m : mem) : Prop :=
  forall b k, nth_error m b = Some k -> (stat b = true <-> bcnt k = None) /\ Forall (vok stat) (bcells k).
Definition tidyCalls (stat : nat -> bool) (fenv : nat -> mem -> Z -> outcome (mem * Z)) : Prop :=
  forall f m z m' z', tidy stat m -> fenv f m z = Ok (m', z') -> tidy stat m'.
(** The variables named in a statement. *)
Definition uses (x : nat) (s : stmt) : bool :=
  match s with
  | SAsg d e | SShort d _ e => usesD x d || usesE x e
  | SList t l => (x =? t)%nat || existsb (usesD x) (map fst l) || existsb (usesE x) (map snd l)
  | SDecl y e => (x =? y)%nat || usesE x e
  end.

(** ** Exact counts *)
Definition blockRefs (k : block) : list nat := if blive k then refs (bcells k) else [].
(** All references in live blocks. *)
Definition liveRefs (m : mem) : list nat := flat_map blockRefs m.
(** Every live heap block has as many references as its count says, at least one; references lead to live heap blocks; variables are live. *)
Definition counted (m : mem) : Prop :=
  (forall b k, nth_error m b = Some k ->
     match bcnt k with None => blive k = true | Some c => blive k = true -> c = Z.of_nat (count_occ Nat.eq_dec (liveRefs m) b) /\ 1 <= c end)
  /\ forall b, In b (liveRefs m) -> exists k c, nth_error m b = Some k /\ blive k = true /\ bcnt k = Some c.
(** Blocks reachable from variables. *)
Inductive reach (m : mem) : nat -> Prop :=
| reachVar b k : nth_error m b = Some k -> bcnt k = None -> blive k = true -> reach m b
| reachRef b k c : reach m b -> nth_error m b = Some k -> blive k = true -> In c (refs (bcells k)) -> reach m c.

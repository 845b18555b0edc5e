(** Specification of type declarations. *)
Require Import Arith List Bool.
Require Import Verif.Base Verif.TypeDeclModel.
Import ListNotations.
Local Open Scope nat_scope.

(** * Types at rest: sound graphs *)
Section Graph.
Variable h : list node.

(** The type has a finite value: the types of its fields and items have one. *)
Inductive finite : nat -> Prop :=
| fin_leaf i n : nth_error h i = Some n ->
    match nk n with
    | KBase _ | KPtr _ | KWeak _ | KDyn _ | KMap _ | KFn _ _ _ | KArr 0 _ => True
    | _ => False
    end -> finite i
| fin_arr i n m j : nth_error h i = Some n -> nk n = KArr m j -> 0 < m -> finite j ->
    finite i
| fin_struct i n fs : nth_error h i = Some n -> nk n = KStruct fs ->
    (forall x j, In (x, j) fs -> finite j) -> finite i.

(** A value of the type holds a counted pointer. *)
Inductive holdsPtr : nat -> Prop :=
| ptr_leaf i n : nth_error h i = Some n ->
    match nk n with
    | KBase BStr | KPtr _ | KDyn _ | KMap _ | KFn _ _ _ => True
    | _ => False
    end -> holdsPtr i
| ptr_arr i n m j : nth_error h i = Some n -> nk n = KArr m j -> 0 < m -> holdsPtr j ->
    holdsPtr i
| ptr_struct i n fs x j : nth_error h i = Some n -> nk n = KStruct fs ->
    In (x, j) fs -> holdsPtr j -> holdsPtr i.

Definition parts (k : kind) : list nat :=
  match k with
  | KForward _ | KBase _ => []
  | KPtr i | KWeak i | KArr _ i | KDyn i | KMap i => [i]
  | KStruct fs => map snd fs
  | KFn ps r _ => r :: ps
  end.

(** Every type is finite, counted if it holds pointers, made of known types, and
    its fields have different names. *)
Definition sound : Prop :=
  forall i n, nth_error h i = Some n ->
    finite i /\ (holdsPtr i -> ngc n = true) /\
    (forall j, In j (parts (nk n)) -> j < List.length h) /\
    match nk n with KStruct fs => NoDup (map fst fs) | _ => True end.

(** Functions have a #result parameter exactly if their result is structured. *)
Definition resultsPassed : Prop :=
  forall i n ps r hr m, nth_error h i = Some n -> nk n = KFn ps r hr ->
    nth_error h r = Some m -> hr = structured (nk m).
End Graph.

Definition known (l : list ident) (h : list node) : Prop :=
  forall d, In d l -> itype d < List.length h.

(** * Meaning of a declaration *)
Section Meaning.
Variable h0 : list node.                  (* the types before *)
Variable ids0 : list ident.               (* the names before *)
Variable ds : list (nat * texpr).         (* the declaration *)

(** A type: one from before, a declared one, or one written where the names [a]
    have been declared. *)
Inductive sty :=
| SOld (i : nat)
| SDecl (x : nat)
| SText (a : list nat) (e : texpr).

(** A name means the type declared for it above; else the type it had before, if
    any; else the type declared below. *)
Definition refers (a : list nat) (x : nat) : sty :=
  if existsb (Nat.eqb x) a then SDecl x
  else match findId ids0 x with
       | Some d => SOld (itype d)
       | None => SDecl x
       end.

Definition mean (a : list nat) (e : texpr) : sty :=
  match e with TName x => refers a x | _ => SText a e end.

Inductive shape (X : Type) :=
| ShBase (b : base)
| ShPtr (t : X)
| ShWeak (t : X)
| ShArr (n : nat) (t : X)
| ShDyn (t : X)
| ShMap (t : X)
| ShStruct (fs : list (nat * X))
| ShFn (ps : list X) (r : X).

Fixpoint meanFields (a : list nat) (fs : flds) : list (nat * sty) :=
  match fs with
  | FNil => []
  | FCons x e fs => (x, mean a e) :: meanFields a fs
  end.

Fixpoint meanParams (a : list nat) (ps : tys) : list sty :=
  match ps with
  | PNil => []
  | PCons e ps => mean a e :: meanParams a ps
  end.

Definition textShape (a : list nat) (e : texpr) : option (shape sty) :=
  match e with
  | TName _ => None
  | TPtr e => Some (ShPtr _ (mean a e))
  | TWeak e => Some (ShWeak _ (mean a e))
  | TArr n e => Some (ShArr _ n (mean a e))
  | TDyn e => Some (ShDyn _ (mean a e))
  | TMap e => Some (ShMap _ (mean a e))
  | TStruct fs => Some (ShStruct _ (meanFields a fs))
  | TFn ps r => Some (ShFn _ (meanParams a ps) (mean a r))
  end.

Definition kindShape (k : kind) : option (shape nat) :=
  match k with
  | KForward _ => None
  | KBase b => Some (ShBase _ b)
  | KPtr i => Some (ShPtr _ i)
  | KWeak i => Some (ShWeak _ i)
  | KArr n i => Some (ShArr _ n i)
  | KDyn i => Some (ShDyn _ i)
  | KMap i => Some (ShMap _ i)
  | KStruct fs => Some (ShStruct _ fs)
  | KFn ps r _ => Some (ShFn _ ps r)
  end.

Definition shapeMap {X Y} (f : X -> Y) (s : shape X) : shape Y :=
  match s with
  | ShBase _ b => ShBase _ b
  | ShPtr _ t => ShPtr _ (f t)
  | ShWeak _ t => ShWeak _ (f t)
  | ShArr _ n t => ShArr _ n (f t)
  | ShDyn _ t => ShDyn _ (f t)
  | ShMap _ t => ShMap _ (f t)
  | ShStruct _ fs => ShStruct _ (map (fun p => (fst p, f (snd p))) fs)
  | ShFn _ ps r => ShFn _ (map f ps) (f r)
  end.

(** What a type is: a declared type is what is written for it. *)
Inductive unfolds : sty -> shape sty -> Prop :=
| U_old i n s : nth_error h0 i = Some n -> kindShape (nk n) = Some s ->
    unfolds (SOld i) (shapeMap SOld s)
| U_text a e s : textShape a e = Some s -> unfolds (SText a e) s
| U_decl a x e b s : ds = a ++ (x, e) :: b -> unfolds (mean (map fst a) e) s ->
    unfolds (SDecl x) s.

(** The name that makes a type equivalent to no type of another name. *)
Definition nameOf (t : sty) : option nat :=
  match t with
  | SOld i => match nth_error h0 i with Some n => nid n | None => None end
  | SDecl x => Some x
  | SText _ _ => None
  end.

Definition shapeRel {X Y} (R : X -> Y -> Prop) (s : shape X) (t : shape Y) : Prop :=
  match s, t with
  | ShBase _ b, ShBase _ c => b = c
  | ShPtr _ x, ShPtr _ y | ShWeak _ x, ShWeak _ y
  | ShDyn _ x, ShDyn _ y | ShMap _ x, ShMap _ y => R x y
  | ShArr _ n x, ShArr _ m y => n = m /\ R x y
  | ShStruct _ f, ShStruct _ g =>
      Forall2 (fun p q => fst p = fst q /\ R (snd p) (snd q)) f g
  | ShFn _ p x, ShFn _ q y => Forall2 R p q /\ R x y
  | _, _ => False
  end.

(** The graph of types at [i] is the type [t], to any depth. *)
Definition denotes (h : list node) (i : nat) (t : sty) : Prop :=
  exists R : nat -> sty -> Prop,
    R i t /\
    forall j u, R j u ->
      exists n s s', nth_error h j = Some n /\ nid n = nameOf u /\
        kindShape (nk n) = Some s /\ unfolds u s' /\ shapeRel R s s'.

(** * Accepted declarations *)
Definition outer (x : nat) : Prop := findId ids0 x <> None.

Definition declared (x : nat) : Prop := In x (map fst ds).

(** Types written after [a]. Only what stands behind a pointer may use names that
    are declared later. *)
Fixpoint legal (a : list nat) (e : texpr) : Prop :=
  let behind e := match e with
                  | TName x => outer x \/ declared x
                  | _ => legal a e
                  end in
  match e with
  | TName x => outer x \/ In x a
  | TPtr e | TWeak e | TDyn e | TMap e => behind e
  | TArr _ e => legal a e
  | TStruct fs => legalFields a fs /\ NoDup (map fst (meanFields a fs))
  | TFn ps r => legalParams a ps /\ behind r
  end
with legalFields (a : list nat) (fs : flds) : Prop :=
  match fs with
  | FNil => True
  | FCons _ e fs => legal a e /\ legalFields a fs
  end
with legalParams (a : list nat) (ps : tys) : Prop :=
  match ps with
  | PNil => True
  | PCons e ps => match e with
                  | TName x => outer x \/ declared x
                  | _ => legal a e
                  end /\ legalParams a ps
  end.

Definition legalDecl : Prop :=
  NoDup (map fst ds) /\
  (forall x d, declared x -> findId ids0 x = Some d -> icur d = false) /\
  (forall a x e b, ds = a ++ (x, e) :: b -> legal (map fst a) e).

(** * What is left out *)

(** No declaration just repeats a name that is not declared yet. *)
Definition plainAliases : Prop :=
  forall a x y b, ds = a ++ (x, TName y) :: b -> outer y \/ In y (map fst a).

(** No array has the length 0. *)
Fixpoint noEmpty (e : texpr) : Prop :=
  match e with
  | TName _ => True
  | TPtr e | TWeak e | TDyn e | TMap e => noEmpty e
  | TArr n e => 0 < n /\ noEmpty e
  | TStruct fs => noEmptyF fs
  | TFn ps r => noEmptyP ps /\ noEmpty r
  end
with noEmptyF (fs : flds) : Prop :=
  match fs with FNil => True | FCons _ e fs => noEmpty e /\ noEmptyF fs end
with noEmptyP (ps : tys) : Prop :=
  match ps with PNil => True | PCons e ps => noEmpty e /\ noEmptyP ps end.

(** Names of results. *)
Fixpoint results (e : texpr) : list nat :=
  match e with
  | TName _ => []
  | TPtr e | TWeak e | TDyn e | TMap e | TArr _ e => results e
  | TStruct fs => resultsF fs
  | TFn ps r => resultsP ps ++ match r with TName x => [x] | _ => results r end
  end
with resultsF (fs : flds) : list nat :=
  match fs with FNil => [] | FCons _ e fs => results e ++ resultsF fs end
with resultsP (ps : tys) : list nat :=
  match ps with PNil => [] | PCons e ps => results e ++ resultsP ps end.

Definition structuredText (e : texpr) : bool :=
  match e with
  | TArr _ _ | TDyn _ | TMap _ | TStruct _ | TFn _ _ => true
  | _ => false
  end.

(** A type that is the result of a function before it is declared is structured. *)
Definition structuredResults : Prop :=
  forall a x e b y e', ds = a ++ (x, e) :: b -> In y (results e) ->
    ~ In y (map fst a) -> ~ outer y -> In (y, e') ds -> structuredText e' = true.
End Meaning.

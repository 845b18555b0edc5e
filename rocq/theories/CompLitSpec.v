(** Specification of composite literals: values, which literals are well formed,
    what an expression means, and how a value is represented in memory. *)
Require Import ZArith List Bool String.
Require Import Verif.Base Verif.CompLitModel.
Import ListNotations.
Local Open Scope nat_scope.

(** Values. The items of an array and the fields of a structure are a sequence;
    a map is a list of keys with their items. *)
Inductive value :=
| VNum (z : Z)
| VSeq (vs : list value)
| VDyn (vs : list value)
| VMap (kvs : list (Z * value)).

(** The fields of a structure and the items of a literal, as lists. *)
Fixpoint fieldList (fs : fields) : list (fname * ty) :=
  match fs with FNil => [] | FCons f t r => (f, t) :: fieldList r end.

Fixpoint itemList (its : items) : list (option fname * expr) :=
  match its with INil => [] | ICons f e r => (f, e) :: itemList r end.

Fixpoint pairList (ps : pairs) : list (expr * expr) :=
  match ps with PNil => [] | PCons k e r => (k, e) :: pairList r end.

(** * Well-formed literals *)
Section Typing.
Variable tys : list ty.

Inductive hasTy : expr -> ty -> Prop :=
| T_Num z : hasTy (ENum z) TInt
| T_Var x t : nth_error tys x = Some t -> hasTy (EVar x) t
| T_Set x e t : nth_error tys x = Some t -> hasTy e t -> hasTy (ESet x e) TInt
| T_Arr n b its :
    (* as many items as the array has, none with a name *)
    map fst (itemList its) = repeat None n ->
    (forall e, In (None, e) (itemList its) -> hasTy e b) ->
    hasTy (ELit (TArr n b) its) (TArr n b)
| T_Pos fs its :
    (* one item for each field, in the order of the declaration *)
    its <> INil ->
    map fst (itemList its) = repeat None (List.length (fieldList fs)) ->
    (forall f t, In (f, t) (fieldList fs) -> identIsHidden f = false) ->
    (forall k f t e, nth_error (fieldList fs) k = Some (f, t) ->
                     nth_error (itemList its) k = Some (None, e) -> hasTy e t) ->
    hasTy (ELit (TRec fs) its) (TRec fs)
| T_Named fs its names :
    (* some fields, each at most once, in any order *)
    map fst (itemList its) = map Some names ->
    NoDup names ->
    (forall f, In f names -> In f (map fst (fieldList fs))) ->
    (forall f t e, In (f, t) (fieldList fs) ->
                   In (Some f, e) (itemList its) -> hasTy e t) ->
    hasTy (ELit (TRec fs) its) (TRec fs)
| T_Dyn b its :
    (forall f e, In (f, e) (itemList its) -> f = None) ->
    (forall e, In (None, e) (itemList its) -> hasTy e b) ->
    hasTy (ELit (TDyn b) its) (TDyn b)
| T_Map b ps :
    (forall k e, In (k, e) (pairList ps) -> hasTy k TInt) ->
    (forall k e, In (k, e) (pairList ps) -> hasTy e b) ->
    hasTy (EMap b ps) (TMap b).
End Typing.

(** Structure types whose fields have different names: the compiler rejects any
    other declaration (typeAddField, umka_types.c:688). *)
Definition uniq (fs : fields) : Prop := NoDup (map fst (fieldList fs)).

Fixpoint wf (e : expr) : Prop :=
  match e with
  | ENum _ | EVar _ => True
  | ESet _ e => wf e
  | ELit t its => match t with TRec fs => uniq fs | _ => True end /\ wfItems its
  | EMap _ ps => wfPairs ps
  end
with wfItems (its : items) : Prop :=
  match its with INil => True | ICons _ e r => wf e /\ wfItems r end
with wfPairs (ps : pairs) : Prop :=
  match ps with PNil => True | PCons k e r => wf k /\ wf e /\ wfPairs r end.

(** * Meaning *)

Fixpoint zeroV (t : ty) : value :=
  match t with
  | TInt => VNum 0
  | TArr n t => VSeq (repeat (zeroV t) n)
  | TRec fs => VSeq (zeroVs fs)
  | TDyn _ => VDyn []
  | TMap _ => VMap []
  end
with zeroVs (fs : fields) : list value :=
  match fs with FNil => [] | FCons _ t r => zeroV t :: zeroVs r end.

(** The value given to a field by name. *)
Fixpoint given (l : list (option fname * value)) (f : fname) : option value :=
  match l with
  | [] => None
  | (Some g, v) :: l => if String.eqb g f then Some v else given l f
  | (None, _) :: l => given l f
  end.

(** The value of a literal with the given items. *)
Definition build (t : ty) (l : list (option fname * value)) : value :=
  match t with
  | TDyn _ => VDyn (map snd l)
  | TRec fs =>
      match l with
      | (None, _) :: _ => VSeq (map snd l)
      | _ => VSeq (map (fun ft => match given l (fst ft) with
                                  | Some v => v
                                  | None => zeroV (snd ft)
                                  end) (fieldList fs))
      end
  | _ => VSeq (map snd l)
  end.

(** A map in which [k] has the item [v]. *)
Fixpoint mapSet (kvs : list (Z * value)) (k : Z) (v : value) :=
  match kvs with
  | [] => [(k, v)]
  | (j, w) :: r => if Z.eqb j k then (j, v) :: r else (j, w) :: mapSet r k v
  end.

Fixpoint mapGet (kvs : list (Z * value)) (k : Z) : option value :=
  match kvs with
  | [] => None
  | (j, w) :: r => if Z.eqb j k then Some w else mapGet r k
  end.

(** The values of the variables. *)
Definition store := list value.

Definition keyOf (v : value) : Z := match v with VNum z => z | _ => 0%Z end.

(** The value of an expression and the values of the variables afterwards. The
    items are evaluated in the order in which they are written. *)
Fixpoint ev (e : expr) (s : store) : value * store :=
  match e with
  | ENum z => (VNum z, s)
  | EVar x => (nth x s (VNum 0), s)
  | ESet x e => let (v, s) := ev e s in (VNum 0, setNth s x v)
  | ELit t its => let (l, s) := evItems its s in (build t l, s)
  | EMap _ ps => let (l, s) := evPairs ps [] s in (VMap l, s)
  end
with evItems (its : items) (s : store) : list (option fname * value) * store :=
  match its with
  | INil => ([], s)
  | ICons f e r =>
      let (v, s) := ev e s in
      let (l, s) := evItems r s in
      ((f, v) :: l, s)
  end
with evPairs (ps : pairs) (acc : list (Z * value)) (s : store)
  : list (Z * value) * store :=
  match ps with
  | PNil => (acc, s)
  | PCons k e r =>
      let (kv, s) := ev k s in
      let (v, s) := ev e s in
      evPairs r (mapSet acc (keyOf kv) v) s
  end.

(** The keys and items of a map literal in the order in which they are written,
    and the last item given to a key. *)
Fixpoint evKeys (ps : pairs) (s : store) : list (Z * value) :=
  match ps with
  | PNil => []
  | PCons k e r =>
      let (kv, s) := ev k s in
      let (v, s) := ev e s in
      (keyOf kv, v) :: evKeys r s
  end.

Fixpoint lastOf (l : list (Z * value)) (k : Z) : option value :=
  match l with
  | [] => None
  | (j, v) :: l => match lastOf l k with
                   | Some w => Some w
                   | None => if Z.eqb j k then Some v else None
                   end
  end.

(** * Items that later items do not change *)

Fixpoint sets (x : nat) (e : expr) : bool :=
  match e with
  | ENum _ | EVar _ => false
  | ESet y e => Nat.eqb x y || sets x e
  | ELit _ its => setsItems x its
  | EMap _ ps => setsPairs x ps
  end
with setsItems (x : nat) (its : items) : bool :=
  match its with
  | INil => false
  | ICons _ e r => sets x e || setsItems x r
  end
with setsPairs (x : nat) (ps : pairs) : bool :=
  match ps with
  | PNil => false
  | PCons k e r => sets x k || (sets x e || setsPairs x r)
  end.

(** In no literal of a dynamic array of structured items does a variable stand
    as an item before an item that assigns this variable. *)
Fixpoint safe (e : expr) : Prop :=
  match e with
  | ENum _ | EVar _ => True
  | ESet _ e => safe e
  | ELit t its =>
      safeItems its /\
      match t with
      | TDyn TInt => True
      | TDyn _ => orderly its
      | _ => True
      end
  | EMap _ ps => safePairs ps
  end
with safeItems (its : items) : Prop :=
  match its with INil => True | ICons _ e r => safe e /\ safeItems r end
with safePairs (ps : pairs) : Prop :=
  match ps with PNil => True | PCons k e r => safe k /\ safe e /\ safePairs r end
with orderly (its : items) : Prop :=
  match its with
  | INil => True
  | ICons _ e r =>
      match e with
      | EVar x => setsItems x r = false
      | _ => True
      end /\ orderly r
  end.

(** * Representation *)
Section Rep.
Variable os : list obj.
Variable fin : nat -> Prop.

(** The cells hold a value of the type. Only objects in [fin] are used. *)
Inductive rep : ty -> list cell -> value -> Prop :=
| R_Int z : rep TInt [CInt z] (VNum z)
| R_Arr n t cs vs : reps (repeat t n) cs vs -> rep (TArr n t) cs (VSeq vs)
| R_Rec fs cs vs :
    reps (map snd (fieldList fs)) cs vs -> rep (TRec fs) cs (VSeq vs)
| R_DynNull t : rep (TDyn t) [CInt 0] (VDyn [])
| R_Dyn t o cs vs :
    fin o -> nth_error os o = Some (ODyn cs) ->
    reps (repeat t (List.length vs)) cs vs -> rep (TDyn t) [CRef o] (VDyn vs)
| R_MapNull t : rep (TMap t) [CInt 0] (VMap [])
| R_Map t o es kvs :
    fin o -> nth_error os o = Some (OMap es) -> repm t es kvs ->
    rep (TMap t) [CRef o] (VMap kvs)
with reps : list ty -> list cell -> list value -> Prop :=
| Rs_Nil : reps [] [] []
| Rs_Cons t ts c cs v vs :
    rep t c v -> reps ts cs vs -> reps (t :: ts) (c ++ cs) (v :: vs)
with repm : ty -> list (Z * list cell) -> list (Z * value) -> Prop :=
| Rm_Nil t : repm t [] []
| Rm_Cons t k c es v kvs :
    rep t c v -> repm t es kvs -> repm t ((k, c) :: es) ((k, v) :: kvs).
End Rep.

(** All objects may be used. *)
Definition anyObj (o : nat) : Prop := True.

(** The operand [sl] stands for the value [v]. *)
Definition holds (st : state) (t : ty) (sl : slot) (v : value) : Prop :=
  exists cs, load st t sl = Ok cs /\ rep (objs st) anyObj t cs v.

(** The variables hold the values of the store. *)
Definition varsHold (tys : list ty) (addr : list nat) (st : state) (s : store)
  : Prop :=
  List.length s = List.length tys /\
  forall x t a v,
    nth_error tys x = Some t -> nth_error addr x = Some a ->
    nth_error s x = Some v ->
    rep (objs st) anyObj t (slice (stk st) a (size t)) v.

(** The variables lie below [lim] and do not overlap. *)
Definition layout (tys : list ty) (addr : list nat) (lim : nat) : Prop :=
  List.length addr = List.length tys /\
  (forall x t a, nth_error tys x = Some t -> nth_error addr x = Some a ->
     a + size t <= lim) /\
  (forall x y t u a b,
     x <> y ->
     nth_error tys x = Some t -> nth_error addr x = Some a ->
     nth_error tys y = Some u -> nth_error addr y = Some b ->
     a + size t <= b \/ b + size u <= a).

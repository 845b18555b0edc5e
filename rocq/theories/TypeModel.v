(** Type equivalence and other tests on types, src/umka_types.c. Types are C structures that point at each other; a program's types
    are modelled as a list of them, pointers being positions in it. *)
From Coq Require Import ZArith Bool List.
From Verif Require Import Base.
Import ListNotations.

(** src/umka_types.h:12-41, TypeKind. *)
Inductive tkind : Type :=
| KNone | KForward | KVoid | KNull | KInt8 | KInt16 | KInt32 | KInt | KUInt8 | KUInt16 | KUInt32 | KUInt | KBool | KChar
| KReal32 | KReal | KPtr | KWeakPtr | KArray | KDynArray | KStr | KMap | KStruct | KInterface | KClosure | KFiber | KFn.
Definition tkind_eq_dec (a b : tkind) : {a = b} + {a <> b}. Proof. decide equality. Defined.
(** kind == kind. *)
Definition keq (a b : tkind) : bool := if tkind_eq_dec a b then true else false.

Definition ty : Type := nat.
(** src/umka_types.h:142-149, Signature; a parameter is its type and default value. The default values are represented by numbers
    that are compared by a parameter [deq] of the model. *)
Record sig : Type := mksig { param : list (ty * Z); numDefaultParams : nat; isMethod : bool; isInterfaceMethod : bool; resultType : ty }.
(** src/umka_types.h:152-174, struct tagType: the members that matter here. The union of base, field and sig is a record. Identifiers
    and field names are numbers. *)
Record tnode : Type := mkt { kind : tkind; block : Z; numItems : nat; isEnum : bool; typeIdent : option Z; base : ty; field : list (Z * ty); tsig : sig }.

(** src/umka_types.h:241-257, typeKindIntegerOrEnum, typeInteger, typeEnum. *)
Definition typeKindIntegerOrEnum (k : tkind) : bool :=
  match k with KInt8 | KInt16 | KInt32 | KInt | KUInt8 | KUInt16 | KUInt32 | KUInt => true | _ => false end.
Definition typeInteger (t : tnode) : bool := typeKindIntegerOrEnum (kind t) && negb (isEnum t).
Definition typeEnum (t : tnode) : bool := typeKindIntegerOrEnum (kind t) && isEnum t.
(** src/umka_types.h:260-281, typeOrdinal, typeReal. *)
Definition typeOrdinal (t : tnode) : bool := typeKindIntegerOrEnum (kind t) || match kind t with KChar | KBool => true | _ => false end.
Definition typeReal (t : tnode) : bool := match kind t with KReal32 | KReal => true | _ => false end.

Section WITH_TYPES.
Variable g : list tnode.
(** Dereferencing a type pointer. *)
Definition getT (t : ty) : outcome tnode := match nth_error g t with Some n => Ok n | None => UB end.
(** src/umka_types.h:479-482, typeMapKey: mapType->base->field[2]->type->base. *)
Definition typeMapKey (m : tnode) : outcome ty :=
  let* n := getT (base m) in
  match nth_error (field n) 2 with Some (_, p) => let* k := getT p in Ok (base k) | None => UB end.

(** src/umka_types.c:355-365, typeDefaultParamEqual: left to the parameter [deq type leftValue rightValue]. *)
Variable deq : ty -> Z -> Z -> bool.

(** src/umka_types.c:421-432, the loop over the fields, for [k] fields from the [i]th on; [rec] is the recursive call. *)
Fixpoint eqFields (rec : ty -> ty -> outcome bool) (k i : nat) (l r : tnode) : outcome bool :=
  match k with
  | O => Ok true
  | S k =>
    match nth_error (field l) i, nth_error (field r) i with
    | Some (n1, t1), Some (n2, t2) =>
      if negb (n1 =? n2)%Z then Ok false else
      let* b := rec t1 t2 in
      if negb b then Ok false else eqFields rec k (S i) l r
    | _, _ => UB
    end
  end.
(** src/umka_types.c:462-477, the loop over the parameters. *)
Fixpoint eqParams (rec : ty -> ty -> outcome bool) (k i : nat) (l r : sig) : outcome bool :=
  match k with
  | O => Ok true
  | S k =>
    if (i =? 0)%nat && isInterfaceMethod l then eqParams rec k (S i) l r else
    match nth_error (param l) i, nth_error (param r) i with
    | Some (t1, d1), Some (t2, d2) =>
      let* b := rec t1 t2 in
      if negb b then Ok false else
      if (Z.of_nat (length (param l)) - Z.of_nat (numDefaultParams l) <=? Z.of_nat i)%Z && negb (deq t1 d1 d2) then Ok false else
      eqParams rec k (S i) l r
    | _, _ => UB
    end
  end.
(** The search in the list of visited pairs, src/umka_types.c:371-373. *)
Fixpoint visited2 (l r : ty) (v : list (ty * ty)) : bool :=
  match v with [] => false | (a, b) :: v => if ((a =? l) && (b =? r))%nat then true else visited2 l r v end.
(** src/umka_types.c:368-491, typeEquivalentRecursive. *)
Fixpoint typeEquivalentRecursive (fuel : nat) (left right : ty) (firstVisited : list (ty * ty)) : outcome bool :=
  match fuel with
  | O => Err EFuel
  | S fuel =>
    if visited2 left right firstVisited then Ok true else
    let newVisited := (left, right) :: firstVisited in
    let rec a b := typeEquivalentRecursive fuel a b newVisited in
    if (left =? right)%nat then Ok true else
    let* l := getT left in
    let* r := getT right in
    match typeIdent l, typeIdent r with
    | Some a, Some b => Ok ((a =? b)%Z && (block l =? block r)%Z)
    | _, _ =>
      if keq (kind l) (kind r) then
        match kind l with
        | KPtr | KWeakPtr => rec (base l) (base r)
        | KArray => if negb (numItems l =? numItems r)%nat then Ok false else rec (base l) (base r)
        | KDynArray => rec (base l) (base r)
        | KStr => Ok true
        | _ =>
          if typeEnum l || typeEnum r then Ok false else
          match kind l with
          | KMap =>
            let* k1 := typeMapKey l in
            let* k2 := typeMapKey r in
            let* b := rec k1 k2 in
            if negb b then Ok false else rec (base l) (base r)
          | KStruct | KInterface | KClosure =>
            if negb (numItems l =? numItems r)%nat then Ok false else eqFields rec (numItems l) 0 l r
          | KFn =>
            let s := tsig l in let u := tsig r in
            if negb (length (param s) =? length (param u))%nat then Ok false else
            if negb (numDefaultParams s =? numDefaultParams u)%nat then Ok false else
            if negb (eqb (isMethod s) (isMethod u)) then Ok false else
            let* b := eqParams rec (length (param s)) 0 s u in
            if negb b then Ok false else
            let* b := rec (resultType s) (resultType u) in
            if negb b then Ok false else Ok true
          | _ => Ok true
          end
        end
      else Ok false
    end
  end.
(** src/umka_types.c:494-497, typeEquivalent. *)
Definition typeEquivalent (fuel : nat) (left right : ty) : outcome bool := typeEquivalentRecursive fuel left right [].
(** src/umka_types.c:506-518, typeCompatible. *)
Definition typeCompatible (fuel : nat) (left right : ty) : outcome bool :=
  let* b := typeEquivalent fuel left right in
  if b then Ok true else
  let* l := getT left in
  let* r := getT right in
  if typeInteger l && typeInteger r then Ok true else
  if typeReal l && typeReal r then Ok true else Ok false.

(** A loop over fields that stops at the first one for which [stop] is the result of the test. *)
Fixpoint anyField (rec : ty -> outcome bool) (stop : bool) (k i : nat) (t : tnode) : outcome bool :=
  match k with
  | O => Ok (negb stop)
  | S k =>
    match nth_error (field t) i with
    | Some (_, f) => let* b := rec f in if eqb b stop then Ok stop else anyField rec stop k (S i) t
    | None => UB
    end
  end.
(** src/umka_types.c:319-346, typeComparableRecursive. *)
Fixpoint visited1 (t : ty) (v : list ty) : bool := match v with [] => false | a :: v => if (a =? t)%nat then true else visited1 t v end.
Fixpoint typeComparableRecursive (fuel : nat) (type : ty) (firstVisited : list ty) : outcome bool :=
  match fuel with
  | O => Err EFuel
  | S fuel =>
    if visited1 type firstVisited then Ok true else
    let rec a := typeComparableRecursive fuel a (type :: firstVisited) in
    let* t := getT type in
    if typeOrdinal t || typeReal t || keq (kind t) KPtr || keq (kind t) KWeakPtr || keq (kind t) KStr then Ok true else
    match kind t with
    | KArray | KDynArray => rec (base t)
    | KStruct => anyField rec false (numItems t) 0 t
    | _ => Ok false
    end
  end.
(** src/umka_types.c:349-352, typeComparable. *)
Definition typeComparable (fuel : nat) (t : ty) : outcome bool := typeComparableRecursive fuel t [].
(** src/umka_types.c:298-316, typeHasPtr. *)
Fixpoint typeHasPtr (fuel : nat) (type : ty) (alsoWeakPtr : bool) : outcome bool :=
  match fuel with
  | O => Err EFuel
  | S fuel =>
    let* t := getT type in
    match kind t with
    | KPtr | KStr | KMap | KDynArray | KInterface | KClosure | KFiber => Ok true
    | k =>
      if keq k KWeakPtr && alsoWeakPtr then Ok true else
      match k with
      | KArray => if (0 <? numItems t)%nat then typeHasPtr fuel (base t) alsoWeakPtr else Ok false
      | KStruct => anyField (fun f => typeHasPtr fuel f alsoWeakPtr) true (numItems t) 0 t
      | _ => Ok false
      end
    end
  end.
End WITH_TYPES.

(** What a C function should be told about types. *)
From Coq Require Import ZArith Bool List String.
From Verif Require Import Base ReflModel.
Import ListNotations.
Local Open Scope Z_scope.

(** The slots of all parameters; a parameter is at the slot after those declared behind it. *)
Definition slots (l : list (nat * Z)) : Z := fold_right Z.add 0 (map snd l).

(** The layout [b] of a function tells its declaration: parameters [ps] after the hidden one, result [r]. Any index may be asked
    for. *)
Record tells (hidden : nat * Z) (ps : list (nat * Z)) (r : nat) (structured : bool) (locals : Z) (b : buf) : Prop := MkTells {
  t_type : forall i, getParamType b i = Ok (if i <? 0 then None else option_map fst (nth_error ps (Z.to_nat i)));
  t_slot : forall i, getParam b i = Ok (if (0 <=? i) && (i <? Z.of_nat (List.length ps))
                                       then Some (slots (skipn (Z.to_nat i + 1) ps) + if structured then 1 else 0) else None);
  t_up : getUpvalue b = Ok (slots ps + if structured then 1 else 0);
  t_res : getResult b = Ok (if structured then Some 0 else None);
  t_resType : getResultType b = Ok (Some r);
  t_size : getParamSlots b = Ok (snd hidden + slots ps + if structured then 1 else 0);
  t_locals : getLocalSlots b = Ok locals }.

Fixpoint names (fs : fexpr) : list string := match fs with FNil => [] | FCons n _ r => n :: names r end.
(** In [T] the API tells of type [u] what was written. *)
Fixpoint describes (T : types) (u : nat) (e : texpr) : Prop :=
  match e with
  | XOld t => u = t
  | XPtr e | XWeak e | XArray e | XDyn e =>
      (exists v, getBaseType T u = Ok (Some v) /\ describes T v e) /\
      getMapKeyType T u = Ok None /\ getMapItemType T u = Ok None /\ forall n, getFieldType T u n = Ok None
  | XMap k v =>
      (exists a, getMapKeyType T u = Ok (Some a) /\ describes T a k) /\ (exists b, getMapItemType T u = Ok (Some b) /\ describes T b v) /\
      getBaseType T u = Ok None /\ forall n, getFieldType T u n = Ok None
  | XStruct fs =>
      NoDup (names fs) /\ hasFields T u fs /\ (forall n, ~ In n (names fs) -> getFieldType T u n = Ok None) /\
      getBaseType T u = Ok None /\ getMapKeyType T u = Ok None /\ getMapItemType T u = Ok None
  end
with hasFields (T : types) (u : nat) (fs : fexpr) : Prop :=
  match fs with
  | FNil => True
  | FCons n e r => (exists v, getFieldType T u n = Ok (Some v) /\ describes T v e) /\ hasFields T u r
  end.

(** A type that can be the type of a field. *)
Definition plain (T : types) (t : nat) : Prop := exists x, nth_error T t = Some x /\ t_kind x <> KVoid /\ t_kind x <> KForward.

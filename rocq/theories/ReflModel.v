(** The types of parameters, results and composite types, as a C function can ask for them. *)
From Coq Require Import ZArith Bool List String.
From Verif Require Import Base.
Import ListNotations.
Local Open Scope Z_scope.

(** ** The frame layout in memory *)
(** A 64-bit word of a layout: a number, a pointer to a type (types are known by number) or NULL, or not yet written. *)
Inductive word : Type := WInt (z : Z) | WType (t : option nat) | WRaw.
Definition buf : Type := list word.
Fixpoint upd {A} (l : list A) (n : nat) (x : A) : list A := match l, n with [], _ => [] | _ :: r, O => x :: r | a :: r, S m => a :: upd r m x end.
Definition inside (b : buf) (i : Z) : bool := (0 <=? i) && (i <? Z.of_nat (List.length b)).
(** An access outside the block is undefined, and so is a read of a word of another kind. *)
Definition write (b : buf) (i : Z) (w : word) : outcome buf := if inside b i then Ok (upd b (Z.to_nat i) w) else UB.
Definition readInt (b : buf) (i : Z) : outcome Z :=
  if inside b i then match nth (Z.to_nat i) b WRaw with WInt z => Ok z | _ => UB end else UB.
Definition readType (b : buf) (i : Z) : outcome (option nat) :=
  if inside b i then match nth (Z.to_nat i) b WRaw with WType t => Ok t | _ => UB end else UB.
Fixpoint writeAll (b : buf) (i : Z) (ws : list word) : outcome buf :=
  match ws with [] => Ok b | w :: r => let* b' := write b i w in writeAll b' (i + 1) r end.

(** STACK_FRAME_LAYOUT_SIZE (src/umka_common.h:197-202) in words: ParamLayout has three members before firstSlotIndex, ParamTypes
    one before paramType, LocalVarLayout has one. *)
Definition layoutSize (numParams : nat) : nat := (3 + numParams + (1 + numParams) + 1)%nat.
(** getParamTypes, getLocalVarLayout (src/umka_common.h:211-223): word numbers, found with the numParams in the block. *)
Definition getParamTypes (b : buf) : outcome Z := let* n := readInt b 0 in Ok (3 + n).
Definition getLocalVarLayout (b : buf) : outcome Z := let* n := readInt b 0 in let* t := getParamTypes b in Ok (t + 1 + n).

(** A signature (src/umka_types.h:141-148): the types of the parameters with their sizes in slots, the result, and whether it is
    structured (typeStructured). *)
Record sig : Type := MkSig { g_params : list (nat * Z); g_result : nat; g_structured : bool }.
(** typeAddParam (src/umka_types.c:805-823); names are left out. MAX_PARAMS is 16 (src/umka_common.h:19). *)
Definition addParam (l : list (nat * Z)) (p : nat * Z) : outcome (list (nat * Z)) :=
  if (16 <=? Z.of_nat (List.length l)) then Err EIllegalType else Ok (l ++ [p]).
Fixpoint addParams (l ps : list (nat * Z)) : outcome (list (nat * Z)) :=
  match ps with [] => Ok l | p :: r => let* l' := addParam l p in addParams l' r end.
(** parseSignature (src/umka_decl.c:136-247): the hidden parameter is #upvalues, or the receiver of a method, added before
    (parseRcvSignature, src/umka_decl.c:109-133); [ptrResult] is the type of #result, of one slot. *)
Definition parseSignature (hidden : nat * Z) (ps : list (nat * Z)) (result : nat) (structured : bool) (ptrResult : nat) : outcome sig :=
  let* l0 := addParam [] hidden in
  let* l1 := addParams l0 ps in
  let* l2 := if structured then addParam l1 (ptrResult, 1) else Ok l1 in
  Ok (MkSig l2 result structured).

(** typeParamSizeUpTo, typeParamSizeTotal, typeParamOffset (src/umka_types.c:826-847) in slots, without the two slots of the old
    base and the return address; for the sizes in bytes and overflow see LayModel.v. *)
Definition slotsUpTo (l : list (nat * Z)) (n : nat) : Z := fold_right (fun p s => snd p + s) 0 (firstn n l).
Definition slotsTotal (l : list (nat * Z)) : Z := slotsUpTo l (List.length l).
Definition firstSlot (l : list (nat * Z)) (i : nat) : Z := slotsTotal l - slotsUpTo l (S i).

(** typeMakeStackFrameLayout (src/umka_types.c:850-874). *)
Definition makeLayout (g : sig) (localVarSlots : Z) : outcome buf :=
  let n := List.length (g_params g) in
  let* b1 := write (repeat WRaw (layoutSize n)) 0 (WInt (Z.of_nat n)) in
  let* b2 := write b1 1 (WInt (if g_structured g then 1 else 0)) in
  let* b3 := write b2 2 (WInt (slotsTotal (g_params g))) in
  let* b4 := writeAll b3 3 (map (fun i => WInt (firstSlot (g_params g) i)) (seq 0 n)) in
  let* t := getParamTypes b4 in
  let* b5 := write b4 t (WType (Some (g_result g))) in
  let* b6 := writeAll b5 (t + 1) (map (fun p => WType (Some (fst p))) (g_params g)) in
  let* v := getLocalVarLayout b6 in
  write b6 v (WInt localVarSlots).
(** doGetOnFreeParams (src/umka_vm.c:185-201), the layout of callbacks of released blocks. *)
Definition onFreeLayout : outcome buf :=
  let* b1 := writeAll (repeat WRaw (layoutSize 2)) 0 [WInt 2; WInt 0; WInt 1; WInt 0; WInt 0] in
  let* t := getParamTypes b1 in
  let* b2 := writeAll b1 t [WType None; WType None; WType None] in
  let* v := getLocalVarLayout b2 in
  write b2 v (WInt 0).

(** umkaGetParam, umkaGetUpvalue, umkaGetResult (src/umka_api.c:286-308): slots from the start of the parameters; None is NULL,
    or for umkaGetResult a result not returned through a pointer. *)
Definition getParam (b : buf) (index : Z) : outcome (option Z) :=
  let* n := readInt b 0 in let* r := readInt b 1 in
  if (index <? 0) || (n - r - 1 <=? index) then Ok None else let* f := readInt b (3 + (index + 1)) in Ok (Some f).
Definition getUpvalue (b : buf) : outcome Z := readInt b 3.
Definition getResult (b : buf) : outcome (option Z) :=
  let* n := readInt b 0 in let* r := readInt b 1 in
  if r =? 1 then let* f := readInt b (3 + (n - 1)) in Ok (Some f) else Ok None.
(** umkaGetParamType, umkaGetResultType (src/umka_api.c:337-351). *)
Definition getParamType (b : buf) (index : Z) : outcome (option nat) :=
  let* n := readInt b 0 in let* r := readInt b 1 in
  if (index <? 0) || (n - r - 1 <=? index) then Ok None else let* t := getParamTypes b in readType b (t + 1 + (index + 1)).
Definition getResultType (b : buf) : outcome (option nat) := let* t := getParamTypes b in readType b t.
(** numParamSlots (src/umka_stmt.c:123, 1371; src/umka_vm.c:4167) and localVarSlots (src/umka_vm.c:4007). *)
Definition getParamSlots (b : buf) : outcome Z := readInt b 2.
Definition getLocalSlots (b : buf) : outcome Z := let* v := getLocalVarLayout b in readInt b v.

(** ** Composite types *)
Inductive kind : Type := KVoid | KForward | KPtr | KWeak | KArray | KDyn | KMap | KStruct | KInterface | KClosure | KFiber | KOther.
(** The part of struct Type (src/umka_types.h:152-174) that matters here; types refer to each other by number. *)
Record trec : Type := MkT { t_kind : kind; t_base : option nat; t_fields : list (string * nat) }.
Definition types : Type := list trec.
Definition get (T : types) (t : nat) : outcome trec := match nth_error T t with Some x => Ok x | None => UB end.
(** typeAdd (src/umka_types.c:116-136): the new type has the next number. *)
Definition typeAdd (T : types) (k : kind) (base : option nat) : nat * types := (List.length T, T ++ [MkT k base []]).
Definition find (l : list (string * nat)) (n : string) : option nat :=
  option_map snd (List.find (fun f => String.eqb (fst f) n) l).
(** typeAddField (src/umka_types.c:674-732); sizes and offsets are in LayModel.v. *)
Definition addField (T : types) (s : nat) (t : nat) (n : string) : outcome types :=
  let* x := get T s in let* f := get T t in
  match find (t_fields x) n with
  | Some _ => Err EIllegalType
  | None =>
      match t_kind f with
      | KForward | KVoid => Err EIllegalType
      | _ => Ok (upd T s (MkT (t_kind x) (t_base x) (t_fields x ++ [(n, t)])))
      end
  end.
Fixpoint addFields (T : types) (s : nat) (l : list (string * nat)) : outcome types :=
  match l with [] => Ok T | (n, t) :: r => let* T' := addField T s t n in addFields T' s r end.
(** typeSetBase (src/umka_types.h:422-430) on a map type. *)
Definition setBase (T : types) (s : nat) (t : nat) : outcome types := let* x := get T s in Ok (upd T s (MkT (t_kind x) (Some t) (t_fields x))).

(** How a program writes a type: a type that exists, or a new one. *)
Inductive texpr : Type := XOld (t : nat) | XPtr (e : texpr) | XWeak (e : texpr) | XArray (e : texpr) | XDyn (e : texpr)
| XMap (k v : texpr) | XStruct (fs : fexpr)
with fexpr : Type := FNil | FCons (n : string) (e : texpr) (r : fexpr).

Section Build.
(** typeValidOperator for TOK_EQEQ, and the number of the type int. *)
Variable comparable : types -> nat -> bool.
Variable intType : nat.

Definition notVoid (T : types) (t : nat) : outcome unit :=
  let* x := get T t in match t_kind x with KVoid => Err EIllegalType | _ => Ok tt end.
(** parsePtrType, parseArrayType, parseMapType, parseStructType (src/umka_decl.c:250-308, 371-434). The length of an array is left
    out; each field of a structure has a type of its own, while in "a, b: T" they share it. *)
Fixpoint build (e : texpr) (T : types) : outcome (nat * types) :=
  match e with
  | XOld t => if (t <? List.length T)%nat then Ok (t, T) else UB
  | XPtr e => let* (u, T1) := build e T in Ok (typeAdd T1 KPtr (Some u))
  | XWeak e => let* (u, T1) := build e T in Ok (typeAdd T1 KWeak (Some u))
  | XArray e => let* (u, T1) := build e T in let* _ := notVoid T1 u in Ok (typeAdd T1 KArray (Some u))
  | XDyn e => let* (u, T1) := build e T in let* _ := notVoid T1 u in Ok (typeAdd T1 KDyn (Some u))
  | XMap k v =>
      let (m, T0) := typeAdd T KMap None in
      let* (key, T1) := build k T0 in
      if negb (comparable T1 key) then Err EIllegalType else
      let (ptrKey, T2) := typeAdd T1 KPtr (Some key) in
      let* (item, T3) := build v T2 in
      let* _ := notVoid T3 item in
      let (ptrItem, T4) := typeAdd T3 KPtr (Some item) in
      let (node, T5) := typeAdd T4 KStruct None in
      let (ptrNode, T6) := typeAdd T5 KPtr (Some node) in
      let* T7 := addFields T6 node [("#len"%string, intType); ("#priority"%string, intType); ("#key"%string, ptrKey);
                                    ("#data"%string, ptrItem); ("#left"%string, ptrNode); ("#right"%string, ptrNode)] in
      let* T8 := setBase T7 m node in
      Ok (m, T8)
  | XStruct fs => let (s, T0) := typeAdd T KStruct None in let* T1 := buildFields s fs T0 in Ok (s, T1)
  end
with buildFields (s : nat) (fs : fexpr) (T : types) : outcome types :=
  match fs with
  | FNil => Ok T
  | FCons n e r => let* (t, T1) := build e T in let* T2 := addField T1 s t n in buildFields s r T2
  end.
End Build.

(** umkaGetBaseType (src/umka_api.c:329-334). *)
Definition getBaseType (T : types) (t : nat) : outcome (option nat) :=
  let* x := get T t in match t_kind x with KPtr | KWeak | KArray | KDyn => Ok (t_base x) | _ => Ok None end.
(** typeFindField (src/umka_types.c:649-662) and umkaGetFieldType (src/umka_api.c:354-363). *)
Definition findField (T : types) (t : nat) (n : string) : outcome (option nat) :=
  let* x := get T t in match t_kind x with KStruct | KInterface | KClosure => Ok (find (t_fields x) n) | _ => Ok None end.
Definition getFieldType (T : types) (t : nat) (n : string) : outcome (option nat) :=
  let* x := get T t in match t_kind x with KStruct => findField T t n | _ => Ok None end.
(** typeMapKey, typeMapItem (src/umka_types.h:479-488) with MAP_NODE_FIELD_KEY and MAP_NODE_FIELD_DATA (src/umka_common.h:25-33). *)
Definition nodeField (T : types) (t : nat) (i : nat) : outcome (option nat) :=
  let* x := get T t in
  match t_base x with
  | None => UB
  | Some b => let* y := get T b in match nth_error (t_fields y) i with None => UB | Some f => let* z := get T (snd f) in Ok (t_base z) end
  end.
(** umkaGetMapKeyType, umkaGetMapItemType (src/umka_api.c:366-379). *)
Definition getMapKeyType (T : types) (t : nat) : outcome (option nat) :=
  let* x := get T t in match t_kind x with KMap => nodeField T t 2 | _ => Ok None end.
Definition getMapItemType (T : types) (t : nat) : outcome (option nat) :=
  let* x := get T t in match t_kind x with KMap => nodeField T t 3 | _ => Ok None end.

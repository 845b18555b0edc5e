(** Layout of types, of parameters and of local variables. *)
From Coq Require Import ZArith Bool List.
From Verif Require Import Base NumModel CmpModel.
Import ListNotations.
Local Open Scope Z_scope.

(** src/umka_common.h:274-277, align; the C division truncates; division by zero is undefined. *)
Definition calign (size alignment : Z) : outcome Z :=
  if alignment =? 0 then UB else
  let* a := chk64 (size + (alignment - 1)) in Ok (Z.quot a alignment * alignment).
(** A store of a 64-bit value to an int. *)
Definition to_int (z : Z) : Z := s32 z.

(** ** Types *)
(** src/umka_types.c:190-229 and 244-285, typeSizeRecompute and typeAlignmentRecompute, which are only called for types
    without items (src/umka_types.c:126-127). Pointers are 8 bytes; sizeof(DynArray) is 24 and sizeof(Map) is 16
    (src/umka_common.h, src/umka_api.h). *)
Definition typeSizeRecompute (k : kind) : Z :=
  match k with
  | KVoid => 0
  | KInt8 | KUInt8 | KBool | KChar => 1
  | KInt16 | KUInt16 => 2
  | KInt32 | KUInt32 | KReal32 => 4
  | KInt | KUInt | KReal | KPtr | KWeakPtr | KStr | KFiber | KFn => 8
  | KArray => 0
  | KDynArray => 24
  | KMap => 16
  | KStruct | KInterface | KClosure => 0
  | KNone | KForward | KNull => -1
  end.
Definition typeAlignmentRecompute (k : kind) : Z :=
  match k with
  | KVoid => 1
  | KInt8 | KInt16 | KInt32 | KInt | KUInt8 | KUInt16 | KUInt32 | KUInt | KBool | KChar | KReal32 | KReal | KPtr | KWeakPtr | KStr =>
      typeSizeRecompute k
  | KArray => 1
  | KDynArray | KMap => 8
  | KStruct | KInterface | KClosure => 1
  | KFiber => typeSizeRecompute k
  | KFn => 8
  | KNone | KForward | KNull => 0
  end.

(** The part of struct Type (src/umka_types.h:152-174) that matters here. [f_off] is Field.offset. *)
Inductive type : Type := MkType { t_kind : kind; t_size : Z; t_align : Z; t_fields : list (Z * type) }.

(** src/umka_types.c:112-134, typeAdd. *)
Definition typeAdd (k : kind) : type := MkType k (typeSizeRecompute k) (typeAlignmentRecompute k) [].
(** src/umka_types.c:232-241 and 288-296, typeSize and typeAlignment. *)
Definition typeSize (t : type) : outcome Z := if t_size t <? 0 then Err EIllegalType else Ok (t_size t).
Definition typeAlignment (t : type) : outcome Z := if t_align t <=? 0 then Err EIllegalType else Ok (t_align t).

(** src/umka_types.c:637-646, typeAssertResizeArray, with src/umka_types.h:432-440, typeResizeArray, on an array type made by
    parseArrayType (src/umka_decl.c:270-307, which checks 0 <= numItems <= INT_MAX). *)
Definition makeArray (numItems : Z) (base : type) : outcome type :=
  if (numItems <? 0) || (INT_MAX <? numItems) then Err EIllegalLen else
  let* s := typeSize base in
  if (0 <? numItems) && (INT_MAX / numItems <? s) then Err EOther else
  let* size := chk32 (numItems * t_size base) in
  Ok (MkType KArray size (t_align base) []).

Fixpoint lastField (l : list (Z * type)) : option (Z * type) :=
  match l with [] => None | [f] => Some f | _ :: r => lastField r end.
(** src/umka_types.c:674-732, typeAddField; names are left out (a duplicate name is an error). *)
Definition typeAddField (st ft : type) : outcome type :=
  if match t_kind ft with KForward | KVoid => true | _ => false end then Err EIllegalType else
  let* minNext := (match lastField (t_fields st) with None => Ok 0 | Some (off, t) => chk32 (off + t_size t) end) in
  let* size := typeSize ft in
  let* room := chk32 (INT_MAX - minNext) in
  if room <? size then Err EOther else
  let* al := typeAlignment ft in
  let* offset := calign minNext al in
  let offset := to_int offset in
  let alignment := if t_align st <? t_align ft then t_align ft else t_align st in
  let* e := chk32 (offset + t_size ft) in
  let* size := calign e alignment in
  Ok (MkType (t_kind st) (to_int size) alignment (t_fields st ++ [(offset, ft)])).
Fixpoint addFields (st : type) (l : list type) : outcome type :=
  match l with [] => Ok st | t :: r => let* st := typeAddField st t in addFields st r end.

(** How a program writes types. Pointers, functions etc. are leaves: what they point to has no influence on the layout.
    Interfaces and closures are [EFields] too (src/umka_decl.c:448-510). *)
Inductive texpr : Type :=
| EBase (k : kind)
| EArray (n : Z) (t : texpr)
| EFields (l : list texpr).
Fixpoint build (e : texpr) : outcome type :=
  match e with
  | EBase k => Ok (typeAdd k)
  | EArray n t => let* b := build t in makeArray n b
  | EFields l =>
      (fix go (st : type) (l : list texpr) : outcome type :=
         match l with
         | [] => Ok st
         | t :: r => let* f := build t in let* st := typeAddField st f in go st r
         end) (typeAdd KStruct) l
  end.

(** ** Parameters. A signature is represented by the sizes of its parameters and whether the result is structured (then the
    last parameter is the hidden result pointer). *)
Record sig : Type := MkSig { g_sizes : list Z; g_structured : bool }.

(** src/umka_types.c:826-833, typeParamSizeUpTo: the sum over the first n parameters. sizeof(Slot) is 8. *)
Fixpoint sumSizes (n : nat) (l : list Z) (size : Z) : outcome Z :=
  match n, l with
  | O, _ => Ok size
  | S n, x :: r => let* a := calign x 8 in let* s := chk64 (size + a) in sumSizes n r (to_int s)
  | S _, [] => UB
  end.
Definition typeParamSizeUpTo (g : sig) (index : Z) : outcome Z := sumSizes (Z.to_nat (index + 1)) (g_sizes g) 0.
(** src/umka_types.c:836-839, typeParamSizeTotal. *)
Definition numParams (g : sig) : Z := Z.of_nat (length (g_sizes g)).
Definition typeParamSizeTotal (g : sig) : outcome Z := typeParamSizeUpTo g (numParams g - 1).
(** src/umka_types.c:842-847, typeParamOffset; the addition is done in size_t. *)
Definition typeParamOffset (g : sig) (index : Z) : outcome Z :=
  let* upTo := typeParamSizeUpTo g index in
  let* total := typeParamSizeTotal g in
  let* d := chk32 (total - upTo) in
  Ok (to_int (u64 (u64 d + 16))).

(** src/umka_common.h:175-195, StackFrameLayout; the types are left out. *)
Record layout : Type := MkLayout { y_numParams : Z; y_numResultParams : Z; y_numParamSlots : Z; y_first : list Z; y_localVarSlots : Z }.
Fixpoint indices (n : nat) (i : Z) : list Z := match n with O => [] | S n => i :: indices n (i + 1) end.
Fixpoint mapO {A B} (f : A -> outcome B) (l : list A) : outcome (list B) :=
  match l with [] => Ok [] | x :: r => let* y := f x in let* ys := mapO f r in Ok (y :: ys) end.
(** src/umka_types.c:850-874, typeMakeStackFrameLayout; the divisions are done in size_t. *)
Definition typeMakeStackFrameLayout (g : sig) (localVarSlots : Z) : outcome layout :=
  let* total := typeParamSizeTotal g in
  let* first := mapO (fun i => let* o := typeParamOffset g i in Ok (s64 (u64 (u64 o / 8 - 2)))) (indices (length (g_sizes g)) 0) in
  Ok (MkLayout (numParams g) (if g_structured g then 1 else 0) (u64 total / 8) first localVarSlots).

(** The C API; [params] is the address of the parameter area in slots. *)
Definition nth_z {A} (l : list A) (i : Z) : outcome A :=
  if i <? 0 then UB else match nth_error l (Z.to_nat i) with Some x => Ok x | None => UB end.
(** src/umka_api.c:286-292, umkaGetParam; None is NULL. *)
Definition umkaGetParam (y : layout) (params index : Z) : outcome (option Z) :=
  if (index <? 0) || (y_numParams y - y_numResultParams y - 1 <=? index) then Ok None
  else let* f := nth_z (y_first y) (index + 1) in Ok (Some (params + f)).
(** src/umka_api.c:295-299, umkaGetUpvalue. *)
Definition umkaGetUpvalue (y : layout) (params : Z) : outcome Z := let* f := nth_z (y_first y) 0 in Ok (params + f).
(** src/umka_api.c:302-308, umkaGetResult: the slot the result pointer is read from, None if the result is returned in the
    result slot itself. *)
Definition umkaGetResult (y : layout) (params : Z) : outcome (option Z) :=
  if y_numResultParams y =? 1 then let* f := nth_z (y_first y) (y_numParams y - 1) in Ok (Some (params + f)) else Ok None.

(** The calling sequence (src/umka_expr.c:1775-1905, parseCall): each parameter is pushed in turn; OP_ASSIGN_PARAM
    (src/umka_vm.c:3227-3244) moves the top down to the slots the parameter needs. Result: the slot of each parameter and the
    top afterwards. Non-structured, non-narrow parameters need one slot and have no OP_ASSIGN_PARAM. *)
Fixpoint pushParams (top : Z) (sizes : list Z) : outcome (list Z * Z) :=
  match sizes with
  | [] => Ok ([], top)
  | size :: r =>
      let top := top - 1 in
      let* a := calign size 8 in
      let paramSlots := Z.quot a 8 in
      let top := if paramSlots =? 1 then top else top - (paramSlots - 1) in
      let* (l, t) := pushParams top r in Ok (top :: l, t)
  end.
(** OP_CALL (src/umka_vm.c:3833-3841) pushes the return address and OP_ENTER_FRAME (src/umka_vm.c:4004-4033) the old base: the
    new base. src/umka_vm.c:289-292, stackGetFrameParams. *)
Definition frameBase (top : Z) : Z := top - 1 - 1.
Definition stackGetFrameParams (base : Z) : Z := base + 2.
(** OP_CALL_INDIRECT (src/umka_vm.c:3844-3856): where the entry point is read. *)
Definition indirectEntrySlot (g : sig) (top : Z) : outcome Z :=
  let* total := typeParamSizeTotal g in Ok (top + Z.quot total 8).
(** OP_RETURN (src/umka_vm.c:3984-4001): the top after the call, given the top at the entry of the function. *)
Definition topAfterReturn (y : layout) (topAtEntry : Z) : Z := topAtEntry + 1 + y_numParamSlots y.

(** ** Blocks and local variables *)
(** src/umka_common.h:132-150, one block: whether it is a function block, and localVarSize. *)
Record blk : Type := MkBlk { k_fn : bool; k_local : Z }.
(** struct Blocks (src/umka_common.h:143-150): [live] are the items up to top, the innermost first (block 0, the global one,
    is never a function block), [stale] the items above top left behind by blocksLeave. *)
Record blocks : Type := MkBlocks { live : list blk; stale : list blk }.
Definition MAX_BLOCK_NESTING : Z := 100.
Definition blocksInit : blocks := MkBlocks [MkBlk false 0] [].

(** src/umka_common.c:528-547, blocksEnterFn and blocksEnter. *)
Definition blocksEnterFn (b : blocks) (fn : bool) : outcome blocks :=
  if MAX_BLOCK_NESTING <=? Z.of_nat (length (live b)) then Err ETooMany else Ok (MkBlocks (MkBlk fn 0 :: live b) (tl (stale b))).
(** src/umka_common.c:550-555, blocksLeave. *)
Definition blocksLeave (b : blocks) : outcome blocks :=
  match live b with [] | [_] => Err EOther | x :: r => Ok (MkBlocks r (x :: stale b)) end.
(** src/umka_common.c:558-561, blocksReenter. *)
Definition blocksReenter (b : blocks) : outcome blocks :=
  match stale b with [] => UB | x :: r => Ok (MkBlocks (x :: live b) r) end.

(** src/umka_ident.c:313-332, identAllocStack; the result is computed in size_t. *)
Fixpoint allocIn (b : list blk) (t : type) : outcome (list blk * Z) :=
  match b with
  | [] | [_] => Err EOther
  | MkBlk fn local :: r =>
      if fn then
        let* size := typeSize t in
        let* room := chk32 (INT_MAX - local) in
        if room <? size then Err EStackOverflow else
        let* al := typeAlignment t in
        let* e := chk32 (local + size) in
        let* s := calign e al in
        let local := to_int s in
        Ok (MkBlk fn local :: r, to_int (u64 (-16 - local)))
      else let* (r, off) := allocIn r t in Ok (MkBlk fn local :: r, off)
  end.
Definition identAllocStack (b : blocks) (t : type) : outcome (blocks * Z) :=
  let* (l, off) := allocIn (live b) t in Ok (MkBlocks l (stale b), off).
(** src/umka_stmt.c:1367, the number of local variable slots of the frame. *)
Definition localVarSlots (local : Z) : outcome Z := let* a := calign local 8 in Ok (Z.quot a 8).

(** What the parser does with blocks. *)
Inductive bop : Type := BEnter (fn : bool) | BLeave | BReenter | BAlloc (t : type).
Definition bstep (b : blocks) (o : bop) : outcome (blocks * option Z) :=
  match o with
  | BEnter fn => let* b := blocksEnterFn b fn in Ok (b, None)
  | BLeave => let* b := blocksLeave b in Ok (b, None)
  | BReenter => let* b := blocksReenter b in Ok (b, None)
  | BAlloc t => let* (b, off) := identAllocStack b t in Ok (b, Some off)
  end.

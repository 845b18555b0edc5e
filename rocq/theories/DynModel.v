(** Dynamic arrays: make, append, insert, delete, slice, copy, len, cap, indexing and conversion to and from static arrays.

    The reference counting done by these functions is modelled in RefModel.v; a dynamic array's storage is never freed here. *)
From Coq Require Import ZArith Lia Bool List.
From Verif Require Import Base NumModel MemModel BlkModel.
Import ListNotations.
Local Open Scope Z_scope.

(** DynArray (src/umka_api.h:74-79): itemSize and data; the type member is constant for the arrays considered. *)
Record dynarr : Type := MkDyn { d_itemSize : Z; d_data : Z }.
Definition dyn_null : dynarr := MkDyn 0 0.

(** src/umka_common.h:286-289, getDims, and its members. *)
Definition dimsLen (o : omem) (a : dynarr) : outcome Z := load64 o (d_data a - 16).
Definition dimsCap (o : omem) (a : dynarr) : outcome Z := load64 o (d_data a - 8).
Definition setDimsLen (o : omem) (a : dynarr) (n : Z) : outcome omem := store64 o (d_data a - 16) n.

Section Dyn.
Variable size : Z.    (* array->type->base->size *)
Variable emptyDims : Z.    (* address of the static dims of doGetEmptyDynArray *)

(** src/umka_vm.c:1444-1453, the capacity chosen by doAllocDynArray. The product 2 * (len + 1) * itemSize is computed in
    int64_t; (INT_MAX - MEM_MIN_FREE_HEAP) / itemSize with itemSize = 0 is never evaluated. *)
Definition LIMIT : Z := INT_MAX - 1024.
Definition newCap (len : Z) : outcome Z :=
  let* prod := chk64 (2 * (len + 1) * size) in
  let capacity := if LIMIT <? prod then LIMIT / size else 2 * (len + 1) in
  Ok (if capacity <? len then len else capacity).

(** src/umka_vm.c:1439-1459, doAllocDynArray. *)
Definition doAllocDynArray (o : omem) (len : Z) : outcome (omem * dynarr) :=
  if (len <? 0) || (INT_MAX <? len) then Err EIllegalLen else
  let* cap := newCap len in
  let* (o, dimsAndData) := chunkAlloc o (16 + cap * size) in
  let* o := store64 o dimsAndData len in
  let* o := store64 o (dimsAndData + 8) cap in
  Ok (o, MkDyn size (dimsAndData + 16)).

(** src/umka_vm.c:1462-1469, doGetEmptyDynArray, applied when data is null. *)
Definition nonempty (a : dynarr) : dynarr := if d_data a =? 0 then MkDyn size (emptyDims + 16) else a.

(** src/umka_vm.c:2230-2237, make() for dynamic arrays. *)
Definition doBuiltinMake (o : omem) (len : Z) : outcome (omem * dynarr) := doAllocDynArray o len.

(** src/umka_vm.c:2256-2273, doBuiltinMakeFromArr; [src] is the address of the static array. *)
Definition doBuiltinMakeFromArr (o : omem) (len src : Z) : outcome (omem * dynarr) :=
  let* (o, dest) := doAllocDynArray o len in
  let* n := dimsLen o dest in
  let* o := memcpy o (d_data dest) src (n * d_itemSize dest) in
  Ok (o, dest).

(** src/umka_vm.c:2294-2319, doBuiltinMakeArr; [dest] is the address of a static array of [numItems] items. *)
Definition doBuiltinMakeArr (o : omem) (dest numItems : Z) (src : dynarr) : outcome omem :=
  let* o := (if (numItems * size =? 0) || valid o dest (numItems * size)
             then Ok (set_mem o (zero_range (om_mem o) dest (numItems * size))) else UB) in
  if d_data src =? 0 then Ok o else
  let* n := dimsLen o src in
  if numItems <? n then Err EIllegalLen else
  memcpy o dest (d_data src) (n * d_itemSize src).

(** src/umka_vm.c:2382-2401, doBuiltinCopyDynArray. *)
Definition doBuiltinCopy (o : omem) (array : dynarr) : outcome (omem * dynarr) :=
  if d_data array =? 0 then Ok (o, array) else
  let* n := dimsLen o array in
  let* (o, result) := doAllocDynArray o n in
  let* n := dimsLen o array in
  let* o := memmove o (d_data result) (d_data array) (n * d_itemSize array) in
  Ok (o, result).

(** src/umka_vm.c:2439-2499, doBuiltinAppend; [rhs] and [rhsLen] are as set up at 2455-2469. *)
Definition appendCore (o : omem) (array : dynarr) (rhs rhsLen : Z) : outcome (omem * dynarr) :=
  let* len := dimsLen o array in
  let* cap := dimsCap o array in
  let newLen := len + rhsLen in
  if newLen <=? cap then
    let result := array in
    let* o := memmove o (d_data result + len * d_itemSize array) rhs (rhsLen * d_itemSize array) in
    let* o := setDimsLen o result newLen in
    Ok (o, result)
  else
    let* (o, result) := doAllocDynArray o newLen in
    let* len := dimsLen o array in
    let* o := memmove o (d_data result) (d_data array) (len * d_itemSize array) in
    let* len := dimsLen o array in
    let* o := memmove o (d_data result + len * d_itemSize array) rhs (rhsLen * d_itemSize array) in
    Ok (o, result).

(** The single-item form; the result is the new memory, the array (its header may have been set to the empty array) and the
    returned array. *)
Definition doBuiltinAppendItem (o : omem) (array : dynarr) (item : Z) : outcome (omem * dynarr * dynarr) :=
  let array := nonempty array in
  let* (o, r) := appendCore o array item 1 in Ok (o, array, r).
(** The array form; [rhsArray] also may have been set to the empty array. *)
Definition doBuiltinAppendArr (o : omem) (array rhsArray : dynarr) : outcome (omem * dynarr * dynarr * dynarr) :=
  let array := nonempty array in
  let rhsArray := nonempty rhsArray in
  let* rhsLen := dimsLen o rhsArray in
  let* (o, r) := appendCore o array (d_data rhsArray) rhsLen in Ok (o, array, rhsArray, r).

(** src/umka_vm.c:2503-2549, doBuiltinInsert. *)
Definition doBuiltinInsert (o : omem) (array : dynarr) (index item : Z) : outcome (omem * dynarr * dynarr) :=
  let array := nonempty array in
  let* len := dimsLen o array in
  let* cap := dimsCap o array in
  if (index <? 0) || (len <? index) then Err EIndex else
  if len + 1 <=? cap then
    let result := array in
    let sz := d_itemSize result in
    let* o := memmove o (d_data result + (index + 1) * sz) (d_data result + index * sz) ((len - index) * sz) in
    let* o := memmove o (d_data result + index * sz) item sz in
    let* n := dimsLen o result in
    let* o := setDimsLen o result (n + 1) in
    Ok (o, array, result)
  else
    let* (o, result) := doAllocDynArray o (len + 1) in
    let sz := d_itemSize result in
    let* o := memmove o (d_data result) (d_data array) (index * sz) in
    let* len := dimsLen o array in
    let* o := memmove o (d_data result + (index + 1) * sz) (d_data array + index * sz) ((len - index) * sz) in
    let* o := memmove o (d_data result + index * sz) item sz in
    Ok (o, array, result).

(** src/umka_vm.c:2553-2577, doBuiltinDeleteDynArray. *)
Definition doBuiltinDelete (o : omem) (array : dynarr) (index : Z) : outcome (omem * dynarr) :=
  if d_data array =? 0 then Err ENull else
  let* len := dimsLen o array in
  if (index <? 0) || (len - 1 <? index) then Err EIndex else
  let result := array in
  let sz := d_itemSize result in
  let* o := memmove o (d_data result + index * sz) (d_data result + (index + 1) * sz) ((len - index - 1) * sz) in
  let* n := dimsLen o result in
  let* o := setDimsLen o result (n - 1) in
  Ok (o, result).

(** src/umka_vm.c:2644-2715, doBuiltinSlice, index handling (2679-2693) for an array or string of [len] items. *)
Definition sliceRange (startIndex endIndex len : Z) : outcome (Z * Z) :=
  let endIndex := if endIndex =? INT_MIN then len else endIndex in
  let endIndex := if endIndex <? 0 then endIndex + len else endIndex in
  if startIndex <? 0 then Err EIndex
  else if (endIndex <? startIndex) || (len <? endIndex) then Err EIndex
  else Ok (startIndex, endIndex).
(** The dynamic array form. A missing end index is passed as INT_MIN (src/umka_expr.c:1210). *)
Definition doBuiltinSlice (o : omem) (array : dynarr) (startIndex endIndex : Z) : outcome (omem * dynarr * dynarr) :=
  let array := nonempty array in
  let* len := dimsLen o array in
  let* (s, e) := sliceRange startIndex endIndex len in
  let* (o, result) := doAllocDynArray o (e - s) in
  let* n := dimsLen o result in
  let* o := memcpy o (d_data result) (d_data array + s * d_itemSize result) (n * d_itemSize result) in
  Ok (o, array, result).

(** src/umka_vm.c:2843-2851 and 2878-2886, len() and cap(). *)
Definition doBuiltinLen (o : omem) (array : dynarr) : outcome Z := if d_data array =? 0 then Ok 0 else dimsLen o array.
Definition doBuiltinCap (o : omem) (array : dynarr) : outcome Z := if d_data array =? 0 then Ok 0 else dimsCap o array.

(** src/umka_vm.c:2962-2967, valid(). *)
Definition doBuiltinValid (array : dynarr) : Z := b2z (negb (d_data array =? 0)).

(** src/umka_vm.c:3644-3664, doGetDynArrayPtr: address of an item. *)
Definition doGetDynArrayPtr (o : omem) (array : dynarr) (index : Z) : outcome Z :=
  if d_data array =? 0 then Err ENull else
  let* len := dimsLen o array in
  if (index <? 0) || (len - 1 <? index) then Err EIndex
  else Ok (d_data array + d_itemSize array * index).

(** Reading or writing a whole item through its address. *)
Definition loadItem (o : omem) (a : Z) : outcome (list Z) :=
  if (size =? 0) || valid o a size then Ok (read (Z.to_nat size) (om_mem o) a) else UB.
Definition storeItem (o : omem) (a : Z) (l : list Z) : outcome omem :=
  if (size =? 0) || valid o a size then Ok (set_mem o (write (om_mem o) a l)) else UB.

(** Operations of a program on dynamic array variables (numbered by Z). An item to append or insert is either a temporary
    value, held in a fresh stack area (src/umka_expr.c:1088-1096,1134-1142), or, for structured item types, the address of
    an item of some array (the expression a[i] is pushed as a pointer). *)
Inductive src : Type := STmp (bytes : list Z) | SElem (v i : Z).
Inductive op : Type :=
| OMake (d n : Z)
| OFromArr (d : Z) (items : list (list Z))   (* d = []T(static array) *)
| OAssign (d v : Z)
| OAppend (d v : Z) (s : src)
| OAppendArr (d v w : Z)
| OInsert (d v i : Z) (s : src)
| ODelete (d v i : Z)
| OSlice (d v i : Z) (e : option Z)
| OCopy (d v : Z)
| OLen (v : Z)
| OCap (v : Z)
| OValid (v : Z)
| OGet (v i : Z)
| OSet (v i : Z) (bytes : list Z)
| OToArr (v n : Z).                          (* [n]T(v), returning the static array's items *)
Inductive out : Type := RUnit | RInt (z : Z) | RItem (l : list Z) | RItems (l : list (list Z)).

Record state : Type := MkState { st_mem : omem; st_var : Z -> dynarr }.
Definition setvar (f : Z -> dynarr) (v : Z) (x : dynarr) : Z -> dynarr := fun y => if y =? v then x else f y.

(** A stack area holding the given bytes. Simplification: stack areas are blocks of their own. *)
Definition tmpBlock (o : omem) (bytes : list Z) : omem * Z :=
  let (o', a) := newBlock o (Z.of_nat (length bytes)) in (set_mem o' (write (om_mem o') a bytes), a).

Definition srcAddr (st : state) (s : src) : outcome (omem * Z) :=
  match s with
  | STmp bytes => Ok (tmpBlock (st_mem st) bytes)
  | SElem v i => let* a := doGetDynArrayPtr (st_mem st) (st_var st v) i in Ok (st_mem st, a)
  end.

Fixpoint loadItems (n : nat) (o : omem) (a : Z) : outcome (list (list Z)) :=
  match n with
  | O => Ok []
  | S n' => let* x := loadItem o a in let* r := loadItems n' o (a + size) in Ok (x :: r)
  end.

Definition step (st : state) (o : op) : outcome (state * out) :=
  let vs := st_var st in
  let m := st_mem st in
  match o with
  | OMake d n => let* (m, r) := doBuiltinMake m n in Ok (MkState m (setvar vs d r), RUnit)
  | OFromArr d items =>
      let (m, a) := tmpBlock m (concat items) in
      let* (m, r) := doBuiltinMakeFromArr m (Z.of_nat (length items)) a in
      Ok (MkState m (setvar vs d r), RUnit)
  | OAssign d v => Ok (MkState m (setvar vs d (vs v)), RUnit)
  | OAppend d v s =>
      let* (m, item) := srcAddr st s in
      let* (m, a, r) := doBuiltinAppendItem m (vs v) item in
      Ok (MkState m (setvar (setvar vs v a) d r), RUnit)
  | OAppendArr d v w =>
      let* (m, a, b, r) := doBuiltinAppendArr m (vs v) (vs w) in
      Ok (MkState m (setvar (setvar (setvar vs v a) w b) d r), RUnit)
  | OInsert d v i s =>
      let* (m, item) := srcAddr st s in
      let* (m, a, r) := doBuiltinInsert m (vs v) i item in
      Ok (MkState m (setvar (setvar vs v a) d r), RUnit)
  | ODelete d v i => let* (m, r) := doBuiltinDelete m (vs v) i in Ok (MkState m (setvar vs d r), RUnit)
  | OSlice d v i e =>
      let* (m, a, r) := doBuiltinSlice m (vs v) i (match e with Some e => e | None => INT_MIN end) in
      Ok (MkState m (setvar (setvar vs v a) d r), RUnit)
  | OCopy d v => let* (m, r) := doBuiltinCopy m (vs v) in Ok (MkState m (setvar vs d r), RUnit)
  | OLen v => let* n := doBuiltinLen m (vs v) in Ok (st, RInt n)
  | OCap v => let* n := doBuiltinCap m (vs v) in Ok (st, RInt n)
  | OValid v => Ok (st, RInt (doBuiltinValid (vs v)))
  | OGet v i =>
      let* a := doGetDynArrayPtr m (vs v) i in
      let* l := loadItem m a in Ok (st, RItem l)
  | OSet v i bytes =>
      let* a := doGetDynArrayPtr m (vs v) i in
      let* m := storeItem m a bytes in Ok (MkState m vs, RUnit)
  | OToArr v n =>
      let (m, dest) := newBlock m (n * size) in
      let* m := doBuiltinMakeArr m dest n (vs v) in
      let* l := loadItems (Z.to_nat n) m dest in Ok (MkState m vs, RItems l)
  end.

Fixpoint run (st : state) (ops : list op) : outcome (state * list out) :=
  match ops with
  | [] => Ok (st, [])
  | o :: r => let* (st, x) := step st o in let* (st, xs) := run st r in Ok (st, x :: xs)
  end.

(** The state before any operation: the static dims of the empty array, all variables null. *)
Definition init : state :=
  MkState (MkOmem (fun _ => 0) [(emptyDims, 16)] (emptyDims + 17)) (fun _ => dyn_null).
End Dyn.

(** Reference counting: the traversal of values by doRefCntImpl and the instructions that use it (src/umka_vm.c).

    Memory consists of cells of 8 bytes at byte offsets: variables (global variables, local variables, temporaries) at numeric addresses,
    and the data of heap chunks. Simplifications: a chunk is not part of a page, so its release is its reference count becoming 0 (pages,
    weak pointers and onFree functions are modelled in HeapModel.v, references to stack frames in CallModel.v); a pointer to a released
    chunk is reported as dangling (in the code, if its page has been removed, it is taken for a pointer outside the heap); smaller
    variables are not modelled, since they hold no references; the validity check of strings (doCheckStr) is left out. *)
From Coq Require Import ZArith Lia Bool List.
From Verif Require Import Base.
Import ListNotations.
Local Open Scope Z_scope.

(** src/umka_types.h:117-160: what reference counting needs to know of a type. Types contained by value are subterms, others are numbers
    in a table of types, since types may be recursive through them. TPlain: any type without references; TMap: the number of the node
    type; a closure is a structure with fields at 0 (the entry) and 8 (the interface with captured variables). *)
Inductive ty : Type :=
| TPlain (size : Z) | TPtr (base : nat) | TStr | TFiber | TArray (item : ty) (n : nat) | TDyn (item : nat) | TMap (node : nat)
| TStruct (fields : list (Z * ty)) (size : Z) | TIface (size : Z).
(** src/umka_types.c:150-230, typeSizeRecompute. *)
Fixpoint sizeOf (t : ty) : Z :=
  match t with
  | TPlain s => s
  | TPtr _ | TStr | TFiber => 8
  | TArray u n => sizeOf u * Z.of_nat n
  | TDyn _ => 24
  | TMap _ => 16
  | TStruct _ s => s
  | TIface s => s
  end.
(** src/umka_types.c:298-316, typeHasPtr, the value of isGarbageCollected. *)
Fixpoint hasPtr (t : ty) : bool :=
  match t with
  | TPlain _ => false
  | TArray u n => negb (Nat.eqb n 0) && hasPtr u
  | TStruct fs _ => (fix go fs := match fs with [] => false | (_, u) :: r => hasPtr u || go r end) fs
  | _ => true
  end.
(** The kinds represented by a pointer to be loaded (1174, 1193, 1209). *)
Definition isPtrKind (t : ty) : bool := match t with TPtr _ | TStr | TFiber => true | _ => false end.

(** An address: of a variable, or within a chunk's data. A cell: a number (0 is also the null pointer), an address, a type. *)
Inductive addr : Type := AVar (z : Z) | AHeap (b : nat) (off : Z).
Inductive word : Type := WInt (z : Z) | WPtr (a : addr) | WTy (t : ty).
(** What a chunk has been allocated for: a variable of a type (new(), map nodes, captured variables), the data of a dynamic array, a string,
    a fiber, a fiber's stack. *)
Inductive obj : Type := OVal (t : ty) | OItems (item : nat) | OStr | OFiber | OStack.
Record chunk : Type := MkChunk { c_ref : Z; c_obj : obj; c_data : Z -> word }.
(** HeapChunk.type as passed to chunkAlloc (907, 1415, 1454, 1474, 1536, 1549, 1562, 1578, 1633, 1636, 2217, 3688, 3689). *)
Definition chunkType (o : obj) : option ty :=
  match o with OVal (TDyn _) => None | OVal t => Some t | OItems it => Some (TDyn it) | OStr | OFiber | OStack => None end.
Record mem : Type := MkMem { vars : Z -> word; heap : list chunk }.

Definition plus (a : addr) (d : Z) : addr := match a with AVar z => AVar (z + d) | AHeap b o => AHeap b (o + d) end.
Definition nullChunk : chunk := MkChunk 0 OStr (fun _ => WInt 0).
Definition chunkAt (m : mem) (b : nat) : chunk := nth b (heap m) nullChunk.
Definition read (m : mem) (a : addr) : word := match a with AVar z => vars m z | AHeap b o => c_data (chunkAt m b) o end.
Fixpoint setNth {A} (l : list A) (n : nat) (x : A) : list A := match l, n with [], _ => [] | _ :: r, O => x :: r | a :: r, S k => a :: setNth r k x end.
Definition setRef (m : mem) (b : nat) (n : Z) : mem := MkMem (vars m) (setNth (heap m) b (MkChunk n (c_obj (chunkAt m b)) (c_data (chunkAt m b)))).
Definition copyCells (f g : Z -> word) (o p n : Z) : Z -> word := fun i => if (o <=? i) && (i <? o + n) then g (p + (i - o)) else f i.
(** memcpy(a, .., n) from cells given by a function of the offset. *)
Definition write (m : mem) (a : addr) (n : Z) (g : Z -> word) : mem :=
  match a with
  | AVar z => MkMem (copyCells (vars m) g z 0 n) (heap m)
  | AHeap b o => let c := chunkAt m b in MkMem (vars m) (setNth (heap m) b (MkChunk (c_ref c) (c_obj c) (copyCells (c_data c) g o 0 n)))
  end.
Definition cellsAt (m : mem) (a : addr) : Z -> word := fun d => read m (plus a d).

Section Ref.
Variable env : nat -> ty.     (* the table of types *)

(** src/umka_vm.h:127-132, RefCntCandidate: a value still to be traversed, or a chunk whose last reference is to be removed then. *)
Inductive cand : Type := Cand (p : word) (t : ty) | Defer (b : nat).

(** pageFind (641-663) with pageContainsPtr: None for a pointer outside the heap. *)
Definition pageFind (m : mem) (p : word) : outcome (option (nat * Z)) :=
  match p with
  | WPtr (AHeap b o) => if c_ref (chunkAt m b) <=? 0 then Err EDangling else Ok (Some (b, o))
  | _ => Ok None
  end.
(** chunkRefCnt (747-779). *)
Definition chunkRefCnt (m : mem) (b : nat) (delta : Z) : outcome mem :=
  if c_ref (chunkAt m b) <=? 0 then Err EWrongRefCnt else Ok (setRef m b (c_ref (chunkAt m b) + delta)).

Definition deref (m : mem) (t : ty) (p : word) : word := if isPtrKind t then match p with WPtr a => read m a | _ => WInt 0 end else p.
(** doAddPtrBaseRefCntCandidate (1169-1179). *)
Definition addPtrBase (m : mem) (p : word) (base : nat) : list cand := if hasPtr (env base) then [Cand (deref m (env base) p) (env base)] else [].
(** doAddArrayItemsRefCntCandidates (1182-1199), with the item type given. The candidates are in the order they are pushed. *)
Definition addItems (m : mem) (a : addr) (u : ty) (n : nat) : list cand :=
  if hasPtr u then map (fun i => Cand (deref m u (WPtr (plus a (Z.of_nat i * sizeOf u)))) u) (seq 0 n) else [].
(** doAddStructFieldsRefCntCandidates (1202-1215). *)
Definition addFields (m : mem) (a : addr) (fs : list (Z * ty)) : list cand :=
  flat_map (fun f => if hasPtr (snd f) then [Cand (deref m (snd f) (WPtr (plus a (fst f)))) (snd f)] else []) fs.
Definition lenOf (w : word) : nat := match w with WInt z => Z.to_nat z | _ => 0%nat end.
Definition FIBER_STACK : Z := 16.      (* offsets in Fiber, src/umka_vm.h:179-192 *)
Definition FIBER_ALIVE : Z := 112.

(** One iteration of the loop of doRefCntImpl (1228-1402): memory and the candidates pushed, in this order; [inc]: "++". *)
Definition step (inc : bool) (m : mem) (c : cand) : outcome (mem * list cand) :=
  let delta := if inc then 1 else -1 in
  let done := fun x : outcome mem => let* m1 := x in Ok (m1, []) in
  match c with
  | Defer b => done (chunkRefCnt m b delta)   (* 1234-1238 *)
  | Cand p (TPtr base) =>   (* 1243-1293 *)
      let* f := pageFind m p in
      match f with
      | None => Ok (m, [])
      | Some (b, o) =>
          if inc then done (chunkRefCnt m b 1)
          else if 1 <? c_ref (chunkAt m b) then done (chunkRefCnt m b (-1))
          else Ok (m, Defer b :: match chunkType (c_obj (chunkAt m b)) with
                                 | Some (TArray u n) => [Cand (WPtr (AHeap b 0)) (TArray u n)]
                                 | Some (TMap nd) => [Cand (WPtr (AHeap b 0)) (TMap nd)]
                                 | Some (TStruct fs s) => [Cand (WPtr (AHeap b 0)) (TStruct fs s)]
                                 | Some (TIface s) => [Cand (WPtr (AHeap b 0)) (TIface s)]
                                 | Some (TDyn it) => addItems m (AHeap b 16) (env it) (lenOf (read m (AHeap b 0)))
                                 | _ => addPtrBase m p base
                                 end)
      end
  | Cand p TStr =>   (* 1295-1305 *)
      let* f := pageFind m p in
      match f with None => Ok (m, []) | Some (b, _) => done (chunkRefCnt m b delta) end
  | Cand (WPtr a) (TArray u n) => Ok (m, addItems m a u n)   (* 1307-1311 *)
  | Cand (WPtr a) (TDyn it) =>   (* 1313-1337 *)
      let data := read m (plus a 16) in
      let* f := pageFind m data in
      match f with
      | None => Ok (m, [])
      | Some (b, o) =>
          if inc then done (chunkRefCnt m b 1)
          else if 1 <? c_ref (chunkAt m b) then done (chunkRefCnt m b (-1))
          else Ok (m, Defer b :: addItems m (AHeap b o) (env it) (lenOf (read m (AHeap b (o - 16)))))
      end
  | Cand (WPtr a) (TMap nd) => Ok (m, [Cand (read m (plus a 8)) (TPtr nd)])   (* 1339-1344 *)
  | Cand (WPtr a) (TStruct fs _) => Ok (m, addFields m a fs)   (* 1346-1350, 1360-1364 *)
  | Cand (WPtr a) (TIface _) =>   (* 1352-1358 *)
      match read m (plus a 0) with
      | WInt 0 => Ok (m, [])
      | w => match read m (plus a 8) with WTy t => Ok (m, [Cand w t]) | _ => UB end
      end
  | Cand p TFiber =>   (* 1366-1397 *)
      let* f := pageFind m p in
      match f with
      | None => Ok (m, [])
      | Some (b, _) =>
          if inc then done (chunkRefCnt m b 1)
          else if 1 <? c_ref (chunkAt m b) then done (chunkRefCnt m b (-1))
          else match read m (AHeap b FIBER_ALIVE) with
               | WInt 0 =>
                   let* fs := pageFind m (read m (AHeap b FIBER_STACK)) in
                   match fs with
                   | None => Err EOther
                   | Some (s, _) => done (let* m1 := chunkRefCnt m s (-1) in chunkRefCnt m1 b (-1))
                   end
               | _ => Err EOther
               end
      end
  | Cand _ (TPlain _) => Ok (m, [])   (* 1399 *)
  | Cand _ _ => UB   (* a structured value is always given by its address *)
  end.
(** The loop; the head of the list is the top of the candidate stack. [n] bounds the number of iterations. *)
Fixpoint loop (n : nat) (inc : bool) (m : mem) (cs : list cand) : outcome mem :=
  match cs with
  | [] => Ok m
  | c :: r =>
      match n with
      | O => Err EFuel
      | S k => let* (m1, new) := step inc m c in loop k inc m1 (rev new ++ r)
      end
  end.
(** doRefCntImpl. *)
Definition refCnt (n : nat) (inc : bool) (m : mem) (p : word) (t : ty) : outcome mem := loop n inc m [Cand p t].

(** doAssignImpl (1021-1065) for types with references. *)
Definition assign (m : mem) (a : addr) (rhs : word) (t : ty) : outcome mem :=
  if isPtrKind t then Ok (write m a 8 (fun _ => rhs))
  else match rhs with WPtr src => Ok (write m a (sizeOf t) (cellsAt m src)) | _ => UB end.
(** doRefCntAssign (3281-3313); [keep]: the right-hand side count should not be increased. *)
Definition refCntAssign (n : nat) (keep : bool) (m : mem) (a : addr) (rhs : word) (t : ty) : outcome mem :=
  let* m1 := if keep then Ok m else refCnt n true m rhs t in
  let* m2 := refCnt n false m1 (deref m1 t (WPtr a)) t in
  assign m2 a rhs t.
(** chunkAlloc (705-744) with what the callers store: a new chunk with one reference. *)
Definition alloc (m : mem) (o : obj) (d : Z -> word) : mem * nat := (MkMem (vars m) (heap m ++ [MkChunk 1 o d]), length (heap m)).
End Ref.

(** ** Programs *)
(** What the compiler emits for declarations, assignments, copies and the ends of blocks. The state is memory and the variables in scope,
    the last declared first: global and local variables, parameters and the temporary variables that hold results of calls. *)
Definition state : Type := mem * list (Z * ty).
Inductive op : Type :=
| ODecl (z : Z) (t : ty)                       (* var x: T *)
| OAssign (a b : addr) (t : ty)                (* lhs = rhs *)
| OCopy (z : Z) (b : addr) (t : ty)            (* a parameter, a result or a variable initialised with rhs *)
| OMove (a : addr)                             (* lhs = the last temporary variable, which is dropped (OP_REF_CNT_ASSIGN with "--") *)
| OAddr (z : Z) (b : addr) (base : nat)        (* &rhs *)
| OIface (z : Z) (b : addr) (base : nat) (s : Z)  (* the pointer rhs converted to an interface of size s *)
| ONew (z : Z) (base : nat)                    (* new(T) *)
| OMake (z : Z) (item : nat) (len : Z)         (* make([]T, len) *)
| OMakeMap (z : Z) (node : nat)                (* make(map[K]V) *)
| OMakeStr (z : Z)                             (* a new string *)
| OMakeFiber (z : Z)                           (* make(fiber, f) *)
| OFinish (b : nat)                            (* a fiber returns *)
| OFromArr (z : Z) (b : addr) (item : nat) (n : nat)  (* the array rhs converted to a dynamic array *)
| OToArr (z : Z) (b : addr) (item : nat) (n : nat)    (* the dynamic array rhs converted to an array *)
| OCopyArr (z : Z) (b : addr) (item : nat)     (* copy(rhs) *)
| OSlice (z : Z) (b : addr) (item : nat) (i j : Z)    (* slice(rhs, i, j) *)
| OAppend (z : Z) (b c : addr) (item : nat) (single : bool)  (* append(rhs, item), append(rhs, array) *)
| OInsert (z : Z) (b : addr) (i : Z) (c : addr) (item : nat)  (* insert(rhs, i, item) *)
| ODelete (z : Z) (b : addr) (i : Z) (item : nat)     (* delete(rhs, i) *)
| OEnd.                                        (* the end of the block of the last variable *)
Definition zeros : Z -> word := fun _ => WInt 0.
Definition oneCell (o : Z) (w : word) : Z -> word := fun i => if i =? o then w else WInt 0.

Section Prog.
Variable env : nat -> ty.
Variable fuel : nat.
Definition declare (s : state) (z : Z) (t : ty) (g : Z -> word) : state := (write (fst s) (AVar z) (sizeOf t) g, (z, t) :: snd s).
(** doAllocDynArray (1439-1460): the capacity. *)
Definition capFor (it : nat) (len : Z) : Z :=
  let size := sizeOf (env it) in
  let c := 2 * (len + 1) in
  let c := if INT_MAX - 1024 <? c * size then (INT_MAX - 1024) / size else c in
  if c <? len then len else c.
(** doAllocDynArray, the memcpy or memmove calls that fill the new array (their effect is given by [g]), and "++" for all items (2264-2269,
    2392-2397, 2488-2495, 2537-2545, 2697-2703). *)
Definition newItems (m : mem) (vs : list (Z * ty)) (z : Z) (it : nat) (len : Z) (g : Z -> word) : outcome state :=
  if (len <? 0) || (INT_MAX <? len) then Err EIllegalLen
  else
    let (m1, b) := alloc m (OItems it) (fun i => if i =? 0 then WInt len else if i =? 8 then WInt (capFor it len)
                                                 else if (16 <=? i) && (i <? 16 + len * sizeOf (env it)) then g (i - 16) else WInt 0) in
    let* m2 := refCnt env fuel true m1 (WPtr (AHeap b 16)) (TArray (env it) (Z.to_nat len)) in
    Ok (declare (m2, vs) z (TDyn it) (oneCell 16 (WPtr (AHeap b 16)))).
(** The data pointer of a dynamic array and what getDims yields. The empty array put in place of a null one (doGetEmptyDynArray, 1463-1470)
    is not in the heap: here the pointer stays null. *)
Definition dataOf (m : mem) (a : addr) : word := read m (plus a 16).
Definition dimOf (m : mem) (a : addr) (d : Z) : Z := match dataOf m a with WPtr (AHeap b o) => Z.of_nat (lenOf (read m (AHeap b (o - d)))) | _ => 0 end.
Definition dynLen (m : mem) (a : addr) : Z := dimOf m a 16.
Definition dynCap (m : mem) (a : addr) : Z := dimOf m a 8.
Definition itemsOf (m : mem) (a : addr) : Z -> word := match dataOf m a with WPtr p => cellsAt m p | _ => zeros end.
Definition exec (s : state) (o : op) : outcome state :=
  let m := fst s in let vs := snd s in
  match o with
  | ODecl z t => Ok (declare s z t zeros)   (* doZero, 3190-3196 *)
  | OAssign a b t => let* m1 := refCntAssign env fuel false m a (deref m t (WPtr b)) t in Ok (m1, vs)
  | OCopy z b t =>   (* doRefCnt "++" (3246-3256), then doAssign or doAssignParam *)
      let rhs := deref m t (WPtr b) in
      let* m1 := refCnt env fuel true m rhs t in
      let* m2 := assign m1 (AVar z) rhs t in Ok (m2, (z, t) :: vs)
  | OMove a =>
      match vs with
      | (z, t) :: r => let* m1 := refCntAssign env fuel true m a (deref m t (WPtr (AVar z))) t in Ok (m1, r)
      | [] => UB
      end
  | OAddr z b base =>
      let* m1 := refCnt env fuel true m (WPtr b) (TPtr base) in
      let* m2 := assign m1 (AVar z) (WPtr b) (TPtr base) in Ok (m2, (z, TPtr base) :: vs)
  | OIface z b base sz =>   (* src/umka_expr.c, doValueToInterfaceConv: self and selfType are stored, the count of self is increased *)
      let p := read m b in
      let* m1 := refCnt env fuel true m p (TPtr base) in
      Ok (declare (m1, vs) z (TIface sz) (fun i => if i =? 0 then p else if i =? 8 then WTy (TPtr base) else WInt 0))
  | ONew z base => let (m1, b) := alloc m (OVal (env base)) zeros in Ok (declare (m1, vs) z (TPtr base) (oneCell 0 (WPtr (AHeap b 0))))   (* 2212-2218 *)
  | OMake z it n =>   (* doBuiltinMake (2228-2235) with doAllocDynArray; the items are zero *)
      if (n <? 0) || (INT_MAX <? n) then Err EIllegalLen
      else
        let (m1, b) := alloc m (OItems it) (fun i => if i =? 0 then WInt n else if i =? 8 then WInt (capFor it n) else WInt 0) in
        Ok (declare (m1, vs) z (TDyn it) (oneCell 16 (WPtr (AHeap b 16))))
  | OMakeMap z nd =>   (* doAllocMap, 1473-1478 *)
      let (m1, b) := alloc m (OVal (env nd)) zeros in Ok (declare (m1, vs) z (TMap nd) (oneCell 8 (WPtr (AHeap b 0))))
  | OMakeStr z => let (m1, b) := alloc m OStr zeros in Ok (declare (m1, vs) z TStr (oneCell 0 (WPtr (AHeap b 16))))   (* doAllocStr, 1406-1423 *)
  | OMakeFiber z =>   (* doAllocFiber, 1627-1655 *)
      let (m1, b) := alloc m OFiber (fun i => if i =? FIBER_STACK then WPtr (AHeap (S (length (heap m))) 0) else if i =? FIBER_ALIVE then WInt 1 else WInt 0) in
      let (m2, _) := alloc m1 OStack zeros in
      Ok (declare (m2, vs) z TFiber (oneCell 0 (WPtr (AHeap b 0))))
  | OFinish b => Ok (write m (AHeap b FIBER_ALIVE) 8 zeros, vs)   (* doReturn, 3992-3996 *)
  | OFromArr z b it n => newItems m vs z it (Z.of_nat n) (cellsAt m b)   (* doBuiltinMakeFromArr, 2256-2272 *)
  | OToArr z b it n =>   (* doBuiltinMakeArr, 2294-2318 *)
      let t := TArray (env it) n in
      if Z.of_nat n <? dynLen m b then Err EIllegalLen
      else
        let m1 := write m (AVar z) (sizeOf t) (fun i => if i <? dynLen m b * sizeOf (env it) then itemsOf m b i else WInt 0) in
        let* m2 := match dataOf m b with WInt 0 => Ok m1 | _ => refCnt env fuel true m1 (WPtr (AVar z)) t end in
        Ok (m2, (z, t) :: vs)
  | OCopyArr z b it =>   (* doBuiltinCopyDynArray, 2380-2401 *)
      match dataOf m b with
      | WInt 0 => Ok (declare s z (TDyn it) (cellsAt m b))
      | _ => newItems m vs z it (dynLen m b) (itemsOf m b)
      end
  | OSlice z b it i j =>   (* doBuiltinSlice, 2644-2705 *)
      let len := dynLen m b in
      let j := if j =? INT_MIN then len else j in
      let j := if j <? 0 then j + len else j in
      if (i <? 0) || (j <? i) || (len <? j) then Err EIndex
      else newItems m vs z it (j - i) (fun d => itemsOf m b (i * sizeOf (env it) + d))
  | OAppend z b c it single =>   (* doBuiltinAppend, 2439-2499; *result = *array is executed at the end here, since result is not read in between *)
      let size := sizeOf (env it) in
      let rhs := if single then cellsAt m c else itemsOf m c in
      let k := if single then 1 else dynLen m c in
      let len := dynLen m b in
      if len + k <=? dynCap m b then
        let* m1 := refCnt env fuel true m (WPtr b) (TDyn it) in
        let* m2 := match dataOf m b with
                   | WPtr (AHeap h o) =>
                       let a := AHeap h (o + len * size) in
                       let m2 := write m1 a (k * size) rhs in
                       let* m3 := refCnt env fuel true m2 (WPtr a) (TArray (env it) (Z.to_nat k)) in
                       Ok (write m3 (AHeap h (o - 16)) 8 (fun _ => WInt (len + k)))
                   | _ => Ok m1
                   end in
        Ok (declare (m2, vs) z (TDyn it) (cellsAt m b))
      else newItems m vs z it (len + k) (fun i => if i <? len * size then itemsOf m b i else rhs (i - len * size))
  | OInsert z b i c it =>   (* doBuiltinInsert, 2503-2549 *)
      let size := sizeOf (env it) in
      let len := dynLen m b in
      if (i <? 0) || (len <? i) then Err EIndex
      else if len + 1 <=? dynCap m b then
        let* m1 := refCnt env fuel true m (WPtr b) (TDyn it) in
        let* m2 := match dataOf m b with
                   | WPtr (AHeap h o) =>
                       let a := AHeap h (o + i * size) in
                       let m2 := write m1 (plus a size) ((len - i) * size) (cellsAt m1 a) in
                       let m3 := write m2 a size (cellsAt m2 c) in
                       let* m4 := refCnt env fuel true m3 (WPtr a) (TArray (env it) 1) in
                       Ok (write m4 (AHeap h (o - 16)) 8 (fun _ => WInt (len + 1)))
                   | _ => UB
                   end in
        Ok (declare (m2, vs) z (TDyn it) (cellsAt m b))
      else newItems m vs z it (len + 1) (fun d => if d <? i * size then itemsOf m b d else if d <? (i + 1) * size then cellsAt m c (d - i * size) else itemsOf m b (d - size))
  | ODelete z b i it =>   (* doBuiltinDeleteDynArray, 2553-2577 *)
      let size := sizeOf (env it) in
      let len := dynLen m b in
      match dataOf m b with
      | WInt 0 => Err ENull
      | _ =>
          if (i <? 0) || (len - 1 <? i) then Err EIndex
          else
            let* m1 := refCnt env fuel true m (WPtr b) (TDyn it) in
            let* m2 := match dataOf m b with
                       | WPtr (AHeap h o) =>
                           let a := AHeap h (o + i * size) in
                           let* m2 := refCnt env fuel false m1 (WPtr a) (TArray (env it) 1) in
                           let m3 := write m2 a ((len - i - 1) * size) (cellsAt m2 (plus a size)) in
                           Ok (write m3 (AHeap h (o - 16)) 8 (fun _ => WInt (len - 1)))
                       | _ => UB
                       end in
            Ok (declare (m2, vs) z (TDyn it) (cellsAt m b))
      end
  | OEnd =>   (* doRefCntLocal, 3264-3278 *)
      match vs with
      | (z, t) :: r => let* m1 := refCnt env fuel false m (deref m t (WPtr (AVar z))) t in Ok (m1, r)
      | [] => UB
      end
  end.
Fixpoint execs (s : state) (os : list op) : outcome state := match os with [] => Ok s | o :: r => let* s1 := exec s o in execs s1 r end.
End Prog.

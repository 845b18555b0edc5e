(** for-in loops. Source: /repo/src/umka_stmt.c, /repo/src/umka_vm.c.

    Simplified: a value takes one cell; reference counts are left out (RefModel); map keys are integers, and a map is the list of its entries in
    ascending order of keys, as C09 and C10 allow; the jumps are taken as structured (C32); the body of the loop is any function of the variables
    it can name and of the memory. Names that start with # cannot be written in a program, so the body has no access to the hidden variables. *)
From Coq Require Import ZArith Lia Bool List.
From Verif Require Import Base.
Import ListNotations.
Local Open Scope Z_scope.

(** The variables of the loop: #len, #collection, index or #index, key, #keys, the result of keys(), item: /repo/src/umka_stmt.c:932-1007. *)
Inductive lvar := VLen | VColl | VIdx | VKey | VKeys | VRes | VItem.
Definition lvarEq (a b : lvar) : bool :=
  match a, b with VLen, VLen | VColl, VColl | VIdx, VIdx | VKey, VKey | VKeys, VKeys | VRes, VRes | VItem, VItem => true | _, _ => false end.

(** Addresses: a variable of the loop, another variable, an item of a block, the data of a map entry, a static array as a whole. *)
Inductive place := PLoop (v : lvar) | PVar (n : nat) | PItem (b : nat) (i : Z) | PEntry (m : nat) (k : Z) | PBlock (b : nat).
(** Integers and characters, the null pointer, pointers, headers of dynamic arrays and maps, strings, other structured values. *)
Inductive value := VInt (z : Z) | VNull | VRef (p : place) | VDyn (b : option nat) | VMap (m : option nat) | VStr (b : option nat) | VOther (n : nat).
(** Type kinds as far as the loop distinguishes them. *)
Inductive kind := KInt | KStr | KPtr | KArr (n : Z) | KDyn | KMap | KStruct.
(** typeStructured: /repo/src/umka_types.h. The value of a structured type is held on the stack as a pointer to it. *)
Definition structured (k : kind) : bool := match k with KArr _ | KDyn | KMap | KStruct => true | _ => false end.

(** Memory outside the loop's variables: other variables, blocks of arrays and strings (their length is in the block), maps. *)
Record mem := Mem { mvar : nat -> value; mblk : nat -> list value; mmap : nat -> list (Z * value); mnext : nat }.
Definition vars := lvar -> value.
Definition setVar (l : vars) (v : lvar) (x : value) : vars := fun w => if lvarEq w v then x else l w.
Definition setBlk (u : mem) (b : nat) (x : list value) : mem := Mem (mvar u) (fun c => if Nat.eqb c b then x else mblk u c) (mmap u) (mnext u).
Definition setMap (u : mem) (m : nat) (x : list (Z * value)) : mem := Mem (mvar u) (mblk u) (fun c => if Nat.eqb c m then x else mmap u c) (mnext u).
Definition bump (u : mem) : mem := Mem (mvar u) (mblk u) (mmap u) (S (mnext u)).

(** doGetMapNode on the ordered entries: /repo/src/umka_vm.c:1499-1530. *)
Fixpoint entry (l : list (Z * value)) (k : Z) : option value :=
  match l with [] => None | (j, v) :: l => if j =? k then Some v else entry l k end.
Fixpoint addEntry (l : list (Z * value)) (k : Z) (v : value) : list (Z * value) :=
  match l with [] => [(k, v)] | (j, w) :: l' => if k <? j then (k, v) :: l else (j, w) :: addEntry l' k v end.

(** doDerefImpl: /repo/src/umka_vm.c:977-1018. An access outside a block is undefined. *)
Definition itemAt (l : list value) (i : Z) : outcome value :=
  if i <? 0 then UB else match nth_error l (Z.to_nat i) with Some v => Ok v | None => UB end.
Definition load (l : vars) (u : mem) (p : place) : outcome value :=
  match p with
  | PLoop v => Ok (l v)
  | PVar n => Ok (mvar u n)
  | PItem b i => itemAt (mblk u b) i
  | PEntry m k => match entry (mmap u m) k with Some v => Ok v | None => UB end
  | PBlock _ => UB
  end.
Definition loadPtr (l : vars) (u : mem) (x : value) : outcome value :=
  match x with VRef p => load l u p | VNull => Err ENull | _ => UB end.

(** The instructions that the header needs. *)
Inductive instr :=
  | IPushInt (z : Z) | IDup | IPop | IPushVar (v : lvar) | IZero (v : lvar) (x : value)
  | ILen (k : kind) | IKeys | ILess | IInc
  | IDeref (k : kind) | IAssign (k : kind)
  | IGetArray (len : Z) | IGetDyn | IGetMap (zero : value).
Definition conf := (list value * vars * mem)%type.

(** doBuiltinLen: /repo/src/umka_vm.c:2840-2870. *)
Definition blkLen (u : mem) (b : option nat) : Z := match b with Some b => Z.of_nat (length (mblk u b)) | None => 0 end.
Definition mapLen (u : mem) (m : option nat) : Z := match m with Some m => Z.of_nat (length (mmap u m)) | None => 0 end.
Definition doLen (l : vars) (u : mem) (k : kind) (x : value) : outcome Z :=
  match k with
  | KDyn => let* h := loadPtr l u x in match h with VDyn b => Ok (blkLen u b) | _ => UB end
  | KStr => match x with VStr b => Ok (blkLen u b) | _ => UB end
  | KMap => let* h := loadPtr l u x in match h with VMap m => Ok (mapLen u m) | _ => UB end
  | _ => Err EIllegalType
  end.

(** One instruction: OP_DUP, OP_POP, doPushLocalPtr, doZero, doBuiltinKeys (/repo/src/umka_vm.c:3028-3049), the comparison and increment of
    doBinary and doUnary, doDeref, doSwapAssign and doRefCntAssign, doGetArrayPtr, doGetDynArrayPtr, doGetMapPtr (/repo/src/umka_vm.c, by name).
    An increment past the largest integer is undefined. *)
Definition step (i : instr) (c : conf) : outcome conf :=
  let '(st, l, u) := c in
  match i, st with
  | IPushInt z, _ => Ok (VInt z :: st, l, u)
  | IDup, x :: st' => Ok (x :: x :: st', l, u)
  | IPop, _ :: st' => Ok (st', l, u)
  | IPushVar v, _ => Ok (VRef (PLoop v) :: st, l, u)
  | IZero v x, _ => Ok (st, setVar l v x, u)
  | ILen k, x :: st' => let* n := doLen l u k x in Ok (VInt n :: st', l, u)
  | IKeys, VRef (PLoop r) :: x :: st' =>
      let* h := loadPtr l u x in
      match h with
      | VMap m => let b := mnext u in
                  let keys := match m with Some m => map (fun e => VInt (fst e)) (mmap u m) | None => [] end in
                  Ok (VRef (PLoop r) :: st', setVar l r (VDyn (Some b)), bump (setBlk u b keys))
      | _ => UB
      end
  | ILess, VInt b :: VInt a :: st' => Ok (VInt (if a <? b then 1 else 0) :: st', l, u)
  | IInc, VRef (PLoop v) :: st' => match l v with
                                   | VInt z => if z <? INT_MAX then Ok (st', setVar l v (VInt (z + 1)), u) else UB
                                   | _ => UB end
  | IDeref k, x :: st' => if structured k then match x with VNull => Err ENull | _ => Ok (st, l, u) end
                          else let* v := loadPtr l u x in Ok (v :: st', l, u)
  | IAssign k, VRef (PLoop v) :: x :: st' => if structured k then let* y := loadPtr l u x in Ok (st', setVar l v y, u) else Ok (st', setVar l v x, u)
  | IGetArray len, VInt i :: x :: st' =>
      match x with
      | VNull | VStr None => Err ENull
      | VRef (PBlock b) | VStr (Some b) => if (i <? 0) || (len - 1 <? i) then Err EIndex else Ok (VRef (PItem b i) :: st', l, u)
      | _ => UB
      end
  | IGetDyn, VInt i :: x :: st' =>
      let* h := loadPtr l u x in
      match h with
      | VDyn None => Err ENull
      | VDyn (Some b) => if (i <? 0) || (blkLen u (Some b) - 1 <? i) then Err EIndex else Ok (VRef (PItem b i) :: st', l, u)
      | _ => UB
      end
  | IGetMap zero, VInt k :: x :: st' =>
      let* h := loadPtr l u x in
      match h with
      | VMap (Some m) => Ok (VRef (PEntry m k) :: st', l, match entry (mmap u m) k with Some _ => u | None => setMap u m (addEntry (mmap u m) k zero) end)
      | VMap None => match x with
                     | VRef (PLoop v) => let m := mnext u in Ok (VRef (PEntry m k) :: st', setVar l v (VMap (Some m)), bump (setMap u m [(k, zero)]))
                     | _ => UB end
      | _ => UB
      end
  | _, _ => UB
  end.
Fixpoint exec (p : list instr) (c : conf) : outcome conf :=
  match p with [] => Ok c | i :: p => let* c := step i c in exec p c end.

(** A loop: the type of the collection, whether the expression is a pointer to it, whether an item is named and followed by ^, the kind and zero
    value of the item type. *)
Record loop := Loop { lcoll : kind; lderef : bool; litem : bool; lptr : bool; lkind : kind; lzero : value }.
Definition isMap (k : kind) : bool := match k with KMap => true | _ => false end.
Definition isArr (k : kind) : bool := match k with KArr _ => true | _ => false end.
(** The type of the item variable: /repo/src/umka_stmt.c:995-1005. *)
Definition itemKind (d : loop) : kind := if lptr d then KPtr else match lcoll d with KStr => KInt | _ => lkind d end.
Definition itemZero (d : loop) : value := if lptr d then VNull else match lcoll d with KStr => VInt 0 | _ => lzero d end.
(** Checks: /repo/src/umka_stmt.c:913-921. A ^ can only follow an item. *)
Definition check (d : loop) : outcome unit :=
  match lcoll d with
  | KArr _ | KDyn | KMap => Ok tt
  | KStr => if lptr d then Err EOther else Ok tt
  | _ => Err EOther
  end.
(** Code before the loop: /repo/src/umka_stmt.c:903-1009. *)
Definition header (d : loop) : list instr :=
  (if lderef d then [IDeref (lcoll d)] else [])
  ++ (match lcoll d with KArr n => [IPushInt n] | k => [IDup; ILen k] end)
  ++ [IPushVar VLen; IAssign KInt]
  ++ (if litem d || isMap (lcoll d)
      then [IZero VColl (match lcoll d with KArr _ => VNull | KDyn => VDyn None | KMap => VMap None | _ => VStr None end);
            IPushVar VColl; IAssign (if isArr (lcoll d) then KPtr else lcoll d)]
      else [IPop])
  ++ [IZero VIdx (VInt 0)]
  ++ (if isMap (lcoll d)
      then [IZero VKey (VInt 0); IZero VKeys (VDyn None); IPushVar VColl; IPushVar VRes; IKeys; IPushVar VKeys; IAssign KDyn]
      else [])
  ++ (if litem d then [IZero VItem (itemZero d)] else []).
(** The condition: /repo/src/umka_stmt.c:1013-1018. *)
Definition cond : list instr := [IPushVar VIdx; IDeref KInt; IPushVar VLen; IDeref KInt; ILess].
(** Key and item: /repo/src/umka_stmt.c:1022-1070. The length given for a string is INT_MAX (32 bits). *)
Definition fetch (d : loop) : list instr :=
  (if isMap (lcoll d) then [IPushVar VKeys; IPushVar VIdx; IDeref KInt; IGetDyn; IDeref KInt; IPushVar VKey; IAssign KInt] else [])
  ++ (if litem d
      then [IPushVar VColl; IDeref (if isArr (lcoll d) then KPtr else lcoll d)]
           ++ (if isMap (lcoll d) then [IPushVar VKey; IDeref KInt] else [IPushVar VIdx; IDeref KInt])
           ++ [match lcoll d with KArr n => IGetArray n | KDyn => IGetDyn | KMap => IGetMap (lzero d) | _ => IGetArray 2147483647 end]
           ++ (if lptr d then [] else [IDeref (itemKind d)])
           ++ [IPushVar VItem; IAssign (itemKind d)]
      else []).
(** The deferred statement: /repo/src/umka_stmt.c:1113-1114. *)
Definition next : list instr := [IPushVar VIdx; IInc].

(** How a statement ends. *)
Inductive flow := FNext | FContinue | FBreak | FReturn.
(** The body: from the index or key variable, the item variable (null if there is none) and the memory to the new ones. *)
Definition body := value -> value -> mem -> outcome (value * value * mem * flow).
Definition nameVar (d : loop) : lvar := if isMap (lcoll d) then VKey else VIdx.

(** The loop as parseForStmt compiles it: /repo/src/umka_stmt.c:1075-1131, genWhileCondProlog to genWhileEpilog. *)
Fixpoint iter (d : loop) (b : body) (fuel : nat) (l : vars) (u : mem) : outcome (mem * flow) :=
  match fuel with
  | O => Err EFuel
  | S fuel =>
      let* (st, l, u) := exec cond ([], l, u) in
      match st with
      | [VInt 0] => Ok (u, FNext)
      | [VInt _] =>
          let* (st, l, u) := exec (fetch d) ([], l, u) in
          let* (i, x, u, f) := b (l (nameVar d)) (if litem d then l VItem else VNull) u in
          let l := setVar (setVar l (nameVar d) i) VItem x in
          match f with
          | FBreak => Ok (u, FNext)
          | FReturn => Ok (u, FReturn)
          | FNext | FContinue => let* (st, l, u) := exec next ([], l, u) in iter d b fuel l u
          end
      | _ => UB
      end
  end.
(** The whole statement, with [e] the value of the expression on the stack. *)
Definition forIn (d : loop) (b : body) (fuel : nat) (l : vars) (e : value) (u : mem) : outcome (mem * flow) :=
  let* _ := check d in
  let* (st, l, u) := exec (header d) ([e], l, u) in
  iter d b fuel l u.

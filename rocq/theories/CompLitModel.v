(** Model of composite literals: arrays, structures, dynamic arrays, maps
    (umka_expr.c:1997-2250).

    Simplifications, stated once:
    - memory is made of cells, not bytes: an integer, a dynamic array and a map
      take one cell each (their byte layout is the subject of C22), so the size
      of a structure is the sum of the sizes of its fields, without padding;
    - the scalar types are represented by one, [TInt]; pointers, interfaces,
      strings and closures as items are not modelled;
    - the implicit conversion of an item to the type expected there
      (doAssertImplicitTypeConv) is the subject of C60: here the item has that
      type already;
    - a call of a function that assigns a variable is the expression [ESet],
      which stores and yields 0: it stands for any item with an effect;
    - temporary variables get the next free stack cells when the literal is
      evaluated; the compiler gives them fixed offsets in the frame, distinct
      for distinct literals (identAllocTempVar, umka_ident.c:352);
    - reference counts are the subject of C42. *)
Require Import ZArith List Bool String Ascii.
Require Import Verif.Base.
Import ListNotations.
Local Open Scope nat_scope.

(** Field and variable names. *)
Definition fname := string.

(** Types: umka_types.h, TYPE_INT, TYPE_ARRAY, TYPE_STRUCT, TYPE_DYNARRAY,
    TYPE_MAP (with integer keys). *)
Inductive ty :=
| TInt
| TArr (n : nat) (t : ty)
| TRec (fs : fields)
| TDyn (t : ty)
| TMap (t : ty)
with fields :=
| FNil
| FCons (f : fname) (t : ty) (r : fields).

(** typeSize (umka_types.c:233), in cells. *)
Fixpoint size (t : ty) : nat :=
  match t with
  | TInt | TDyn _ | TMap _ => 1
  | TArr n t => n * size t
  | TRec fs => sizes fs
  end
with sizes (fs : fields) : nat :=
  match fs with
  | FNil => 0
  | FCons _ t r => size t + sizes r
  end.

(** Type::numItems of a structure. *)
Fixpoint numFields (fs : fields) : nat :=
  match fs with FNil => 0 | FCons _ _ r => S (numFields r) end.

(** [Type::field[k]] with its name, type and offset (typeAddField,
    umka_types.c:674: a field begins where the previous one ended). *)
Fixpoint fieldAt (fs : fields) (k : nat) : option (fname * ty * nat) :=
  match fs with
  | FNil => None
  | FCons f t r =>
      match k with
      | 0 => Some (f, t, 0)
      | S k => match fieldAt r k with
               | Some (g, u, off) => Some (g, u, size t + off)
               | None => None
               end
      end
  end.

(** typeFindField (umka_types.c:649-662): the index of the first field with
    this name. *)
Fixpoint findField (fs : fields) (f : fname) : option nat :=
  match fs with
  | FNil => None
  | FCons g _ r => if String.eqb g f then Some 0
                   else match findField r f with
                        | Some k => Some (S k)
                        | None => None
                        end
  end.

(** identIsHidden (umka_ident.h:82-85). *)
Definition identIsHidden (f : fname) : bool :=
  match f with
  | String c _ => Ascii.eqb c "#"%char
  | EmptyString => false
  end.

(** Expressions. [ELit t its] is a literal of an array, structure or dynamic
    array type, [EMap t ps] a literal of the type map[int]t. *)
Inductive expr :=
| ENum (z : Z)
| EVar (x : nat)
| ESet (x : nat) (e : expr)
| ELit (t : ty) (its : items)
| EMap (t : ty) (ps : pairs)
with items :=
| INil
| ICons (f : option fname) (e : expr) (r : items)
with pairs :=
| PNil
| PCons (k e : expr) (r : pairs).

(** The structural equality of types needed by typeAssertCompatible
    (umka_types.c:521) for these types. *)
Fixpoint tyEqb (a b : ty) : bool :=
  match a, b with
  | TInt, TInt => true
  | TArr n t, TArr m u => Nat.eqb n m && tyEqb t u
  | TRec fs, TRec gs => fieldsEqb fs gs
  | TDyn t, TDyn u => tyEqb t u
  | TMap t, TMap u => tyEqb t u
  | _, _ => false
  end
with fieldsEqb (a b : fields) : bool :=
  match a, b with
  | FNil, FNil => true
  | FCons f t r, FCons g u s => String.eqb f g && tyEqb t u && fieldsEqb r s
  | _, _ => false
  end.

(** Whether the structure literal names its fields: it is empty, or an
    identifier and a colon come first (umka_expr.c:2006-2016). *)
Definition namedFields (t : ty) (its : items) : bool :=
  match t with
  | TRec _ => match its with
              | INil => true
              | ICons (Some _) _ _ => true
              | ICons None _ _ => false
              end
  | _ => false
  end.

(** The array fieldInitialized with one entry set (umka_expr.c:2054). *)
Fixpoint setInit (l : list bool) (k : nat) : list bool :=
  match l, k with
  | [], _ => []
  | _ :: l, 0 => true :: l
  | b :: l, S k => b :: setInit l k
  end.

(** What the compiler checks: the type of the expression, or None if it reports
    an error. [tys] are the types of the variables.

    [checkLit t named ini k its] is the loop of parseArrayOrStructLiteral
    (umka_expr.c:2037-2093) with the test behind it (2095-2096). The items of
    an unnamed literal are expressions, so a name there is a syntax error; an
    item without a name in a named literal is one too (2046, 2058). *)
Section Check.
Variable tys : list ty.

Fixpoint check (e : expr) : option ty :=
  match e with
  | ENum _ => Some TInt
  | EVar x => nth_error tys x
  | ESet x e =>
      match nth_error tys x, check e with
      | Some t, Some u => if tyEqb t u then Some TInt else None
      | _, _ => None
      end
  | ELit t its =>
      match t with
      | TArr n b => if checkArr b n 0 its then Some t else None
      | TRec fs =>
          if namedFields t its
          then if checkNamed fs (repeat false (numFields fs)) its
               then Some t else None
          else if checkPos fs 0 its then Some t else None
      | TDyn b => if checkDyn b its then Some t else None
      | _ => None
      end
  | EMap t ps => if checkMap t ps then Some (TMap t) else None
  end
(** The array case of umka_expr.c:2037-2096. *)
with checkArr (b : ty) (n k : nat) (its : items) : bool :=
  match its with
  | INil => negb (k <? n)                              (* 2095 *)
  | ICons None e r =>
      if n <=? k then false                            (* 2039 *)
      else match check e with
           | Some u => tyEqb b u && checkArr b n (S k) r
           | None => false
           end
  | ICons (Some _) _ _ => false
  end
(** The case of a structure without names. *)
with checkPos (fs : fields) (k : nat) (its : items) : bool :=
  match its with
  | INil => negb (k <? numFields fs)                   (* 2095 *)
  | ICons None e r =>
      if numFields fs <=? k then false                 (* 2039 *)
      else match fieldAt fs k with
           | Some (f, t, _) =>
               if identIsHidden f then false           (* 2063 *)
               else match check e with
                    | Some u => tyEqb t u && checkPos fs (S k) r
                    | None => false
                    end
           | None => false
           end
  | ICons (Some _) _ _ => false
  end
(** The case of a structure with names. *)
with checkNamed (fs : fields) (ini : list bool) (its : items) : bool :=
  match its with
  | INil => true
  | ICons (Some f) e r =>
      match findField fs f with
      | None => false                                  (* 2049 *)
      | Some k =>
          if nth k ini false then false                (* 2051 *)
          else match fieldAt fs k, check e with
               | Some (_, t, _), Some u =>
                   tyEqb t u && checkNamed fs (setInit ini k) r
               | _, _ => false
               end
      end
  | ICons None _ _ => false                            (* 2046 *)
  end
(** The loop of parseDynArrayLiteral (umka_expr.c:2124-2143). *)
with checkDyn (b : ty) (its : items) : bool :=
  match its with
  | INil => true
  | ICons None e r =>
      match check e with
      | Some u => tyEqb b u && checkDyn b r
      | None => false
      end
  | ICons (Some _) _ _ => false
  end
(** The loop of parseMapLiteral (umka_expr.c:2218-2242). *)
with checkMap (b : ty) (ps : pairs) : bool :=
  match ps with
  | PNil => true
  | PCons k e r =>
      match check k, check e with
      | Some tk, Some u => tyEqb TInt tk && (tyEqb b u && checkMap b r)
      | _, _ => false
      end
  end.
End Check.

(** A cell of memory: an integer (null pointers are 0), or a reference to an
    object in the heap. *)
Inductive cell := CInt (z : Z) | CRef (o : nat).

(** Heap objects: the items of a dynamic array, or the nodes of a map. *)
Inductive obj :=
| ODyn (cs : list cell)
| OMap (es : list (Z * list cell)).

(** The machine: the stack, its first free cell, the heap. *)
Record state := mkState {
  stk : nat -> cell;
  top : nat;
  objs : list obj
}.

(** A slot of the stack of operands: an integer, or the address of a structured
    value (typeStructured, umka_types.h:300; OP_DEREF leaves the address of such
    a value where it is, doDerefImpl, umka_vm.c:977-1015). *)
Inductive slot := SNum (z : Z) | SPtr (a : nat).

(** Reading and writing consecutive cells (memcpy in doAssignImpl,
    umka_vm.c:1058). *)
Definition slice (m : nat -> cell) (a n : nat) : list cell :=
  map m (seq a n).

Definition blit (m : nat -> cell) (a : nat) (cs : list cell) : nat -> cell :=
  fun i => if (a <=? i) && (i <? a + List.length cs)
           then nth (i - a) cs (CInt 0) else m i.

(** The cells that a slot of the given type stands for. *)
Definition load (st : state) (t : ty) (s : slot) : outcome (list cell) :=
  match t, s with
  | TInt, SNum z => Ok [CInt z]
  | TInt, SPtr _ => UB
  | _, SPtr a => Ok (slice (stk st) a (size t))
  | _, SNum _ => UB
  end.

(** OP_ASSIGN to a stack address (doAssignImpl, umka_vm.c:1018-1066). *)
Definition assign (st : state) (t : ty) (a : nat) (s : slot) : outcome state :=
  let* cs := load st t s in
  Ok (mkState (blit (stk st) a cs) (top st) (objs st)).

(** A temporary variable (identAllocTempVar, umka_ident.c:352;
    identAllocStack, umka_ident.c:313). *)
Definition alloc (st : state) (n : nat) : nat * state :=
  (top st, mkState (stk st) (top st + n) (objs st)).

(** doZeroVar (umka_stmt.c:52-62). *)
Definition zeroVar (st : state) (a n : nat) : state :=
  mkState (blit (stk st) a (repeat (CInt 0) n)) (top st) (objs st).

(** A new heap object. *)
Definition newObj (st : state) (o : obj) : nat * state :=
  (List.length (objs st), mkState (stk st) (top st) (objs st ++ [o])).

Fixpoint setNth {A} (l : list A) (i : nat) (a : A) : list A :=
  match l, i with
  | [], _ => []
  | _ :: l, 0 => a :: l
  | b :: l, S i => b :: setNth l i a
  end.

(** The nodes of a map; the tree they hang in is the subject of C09. *)
Fixpoint mapHas (es : list (Z * list cell)) (k : Z) : bool :=
  match es with
  | [] => false
  | (j, _) :: es => Z.eqb j k || mapHas es k
  end.

Fixpoint mapPut (es : list (Z * list cell)) (k : Z) (cs : list cell) :=
  match es with
  | [] => []
  | (j, old) :: es => if Z.eqb j k then (j, cs) :: es
                      else (j, old) :: mapPut es k cs
  end.

(** OP_GET_MAP_PTR (doGetMapPtr, umka_vm.c:3667-3705): a node for the key is
    found, or added with an item that is zero. *)
Definition getMapPtr (st : state) (o : nat) (k : Z) (n : nat) : outcome state :=
  match nth_error (objs st) o with
  | Some (OMap es) =>
      if mapHas es k then Ok st
      else Ok (mkState (stk st) (top st)
                 (setNth (objs st) o (OMap (es ++ [(k, repeat (CInt 0) n)]))))
  | _ => UB
  end.

(** OP_ASSIGN to the item of that node. *)
Definition assignMap (st : state) (t : ty) (o : nat) (k : Z) (s : slot)
  : outcome state :=
  let* cs := load st t s in
  match nth_error (objs st) o with
  | Some (OMap es) =>
      Ok (mkState (stk st) (top st)
            (setNth (objs st) o (OMap (mapPut es k cs))))
  | _ => UB
  end.

(** The loop that stores the operands of a dynamic array literal, the last one
    first (umka_expr.c:2172-2176): [ss] has the last item at its head, [i] is
    the number of items still to be stored. *)
Fixpoint storeBack (st : state) (b : ty) (a i : nat) (ss : list slot)
  : outcome state :=
  match ss, i with
  | [], _ => Ok st
  | s :: ss, S i =>
      let* st := assign st b (a + i * size b) s in
      storeBack st b a i ss
  | _, 0 => UB
  end.

(** The offset of the item number [k] (umka_expr.c:2055, 2066, 2088). *)
Definition itemPlace (t : ty) (named : bool) (f : option fname) (k off : nat)
  : option (ty * nat) :=
  match t with
  | TArr _ b => Some (b, off)
  | TRec fs =>
      let idx := if named
                 then match f with Some f => findField fs f | None => None end
                 else Some k in
      match idx with
      | Some j => match fieldAt fs j with
                  | Some (_, u, o) => Some (u, o)
                  | None => None
                  end
      | None => None
      end
  | _ => None
  end.

(** What the compiled expression does. [addr] are the addresses of the
    variables, [tys] their types. *)
Section Run.
Variable tys : list ty.
Variable addr : list nat.

Fixpoint run (e : expr) (st : state) : outcome (slot * state) :=
  match e with
  | ENum z => Ok (SNum z, st)
  | EVar x =>
      match nth_error tys x, nth_error addr x with
      | Some TInt, Some a =>
          match stk st a with CInt z => Ok (SNum z, st) | CRef _ => UB end
      | Some _, Some a => Ok (SPtr a, st)
      | _, _ => UB
      end
  | ESet x e =>
      let* (s, st) := run e st in
      match nth_error tys x, nth_error addr x with
      | Some t, Some a =>
          let* st := assign st t a s in
          Ok (SNum 0, st)
      | _, _ => UB
      end
  | ELit t its =>
      match t with
      | TDyn b =>
          (* parseDynArrayLiteral, umka_expr.c:2110-2199 *)
          let* (ss, st) := runAll its [] st in
          match ss with
          | [] =>
              let (a, st) := alloc st 1 in
              Ok (SPtr a, zeroVar st a 1)
          | _ =>
              let n := List.length ss in
              let (a, st) := alloc st (n * size b) in
              let* st := storeBack st b a n ss in
              (* the conversion to a dynamic array, doArrayToDynArrayConv
                 (umka_expr.c:249-268), copies the items to the heap *)
              let (o, st) := newObj st (ODyn (slice (stk st) a (n * size b))) in
              let (d, st) := alloc st 1 in
              Ok (SPtr d, mkState (blit (stk st) d [CRef o]) (top st) (objs st))
          end
      | _ =>
          (* parseArrayOrStructLiteral, umka_expr.c:1999-2107 *)
          let (a, st) := alloc st (size t) in
          let* st := runItems t (namedFields t its) a 0 0 its
                              (zeroVar st a (size t)) in
          Ok (SPtr a, st)
      end
  | EMap t ps =>
      (* parseMapLiteral, umka_expr.c:2203-2250 *)
      let (a, st) := alloc st 1 in
      let st := zeroVar st a 1 in
      let (o, st) := newObj st (OMap []) in
      let st := mkState (blit (stk st) a [CRef o]) (top st) (objs st) in
      let* st := runPairs t o ps st in
      Ok (SPtr a, st)
  end
(** umka_expr.c:2037-2093: an item is stored as soon as it is evaluated. *)
with runItems (t : ty) (named : bool) (a k off : nat) (its : items) (st : state)
  : outcome state :=
  match its with
  | INil => Ok st
  | ICons f e r =>
      match itemPlace t named f k off with
      | Some (u, o) =>
          let* (s, st) := run e st in
          let* st := assign st u (a + o) s in
          runItems t named a (S k) (off + size u) r st
      | None => UB
      end
  end
(** umka_expr.c:2124-2143: the items stay on the stack of operands, the last one
    on its top. *)
with runAll (its : items) (ss : list slot) (st : state)
  : outcome (list slot * state) :=
  match its with
  | INil => Ok (ss, st)
  | ICons _ e r =>
      let* (s, st) := run e st in
      runAll r (s :: ss) st
  end
(** umka_expr.c:2218-2242. *)
with runPairs (t : ty) (o : nat) (ps : pairs) (st : state) : outcome state :=
  match ps with
  | PNil => Ok st
  | PCons k e r =>
      let* (s, st) := run k st in
      match s with
      | SNum z =>
          let* st := getMapPtr st o z (size t) in
          let* (s, st) := run e st in
          let* st := assignMap st t o z s in
          runPairs t o r st
      | SPtr _ => UB
      end
  end.
End Run.

(** Calls of built-in functions: how the compiler checks them and lays out their arguments, and what the machine takes.

    Values are symbolic: the value of an expression is its name, and a built-in function applied to values is a term. What
    the functions compute is in other models. Reference counting and the temporary variables that keep results alive are
    left out. Run-time errors other than exit() are left out. *)
From Coq Require Import ZArith Bool List.
Import ListNotations.
Local Open Scope Z_scope.

(** Types (src/umka_types.h:14-46), as far as built-in functions tell them apart; two equivalent types are equal here. *)
Inductive ty : Type :=
| TVoid | TNull | TInt | TBool | TReal | TStr | TFile | TFiber
| TArray (b : ty) (n : Z) | TDyn (b : ty) | TMap (k i : ty) | TStruct (id : Z) | TIface (id : Z) | TFn (id : Z) | TClosure (id : Z)
| TPtr (b : ty) | TOther (id : Z).

Fixpoint tyEq (a b : ty) : bool :=
  match a, b with
  | TVoid, TVoid | TNull, TNull | TInt, TInt | TBool, TBool | TReal, TReal | TStr, TStr | TFile, TFile | TFiber, TFiber => true
  | TArray x n, TArray y m => tyEq x y && (n =? m)
  | TDyn x, TDyn y | TPtr x, TPtr y => tyEq x y
  | TMap k i, TMap k' i' => tyEq k k' && tyEq i i'
  | TStruct i, TStruct j | TIface i, TIface j | TFn i, TFn j | TClosure i, TClosure j | TOther i, TOther j => i =? j
  | _, _ => false
  end.

(** typeStructured (src/umka_types.h:300-304). *)
Definition structured (t : ty) : bool :=
  match t with TArray _ _ | TDyn _ | TMap _ _ | TStruct _ | TIface _ | TClosure _ => true | _ => false end.

(** BuiltinFunc (src/umka_vm.h), the ones that can be called by name, and BUILTIN_SORTFAST. *)
Inductive builtin : Type :=
| BPrintf | BFprintf | BSprintf | BScanf | BFscanf | BSscanf
| BRound | BTrunc | BCeil | BFloor | BAbs | BFabs | BSqrt | BSin | BCos | BAtan | BAtan2 | BExp | BLog
| BNew | BMake | BCopy | BAppend | BInsert | BDelete | BSlice | BSort | BSortFast | BLen | BCap | BSizeOf | BSizeOfSelf
| BSelfPtr | BSelfHasPtr | BSelfTypeEq | BTypePtr | BValid | BValidKey | BKeys | BResume | BMemUsage | BLeakSan | BExit.

(** What is written between the parentheses: expressions with their types, types, and field names with the type and
    offset of the field if there is one. [a_const] says if the expression is constant. *)
Record arg : Type := MkArg { a_id : Z; a_ty : ty; a_const : bool }.
Inductive item : Type := XExpr (a : arg) | XType (t : ty) | XField (f : option (ty * Z)).

(** Where a pointer points: a temporary area of the stack frame or a new cell of the heap. *)
Inductive place : Type := PTemp (o : Z) | PHeap (n : Z).
(** Values, with what an input or output function has done so far. *)
Inductive val : Type :=
| VExpr (i : Z)
| VConv (t : ty) (v : val)
| VInt (n : Z)
| VNull
| VEmpty
| VType (t : ty)
| VPtr (p : place)
| VRes (b : builtin) (args : list val)
| VRest (f : val) (e : event)
| VCount (c : val) (e : event)
| VStream (s : val) (e : event)
with event : Type := EIO (b : builtin) (stream format : val) (t : ty) (v : val).
(** What is seen outside: input and output, and functions without results. *)
Inductive effect : Type := FIO (e : event) | FDo (b : builtin) (args : list val).

Inductive instr : Type :=
| IEval (a : arg)
| IConv (t : ty)
| IPush (v : val)
| IPushTemp (o : Z)
| ISwapAssign
| IAssign
| IPop
| IDup
| ISwap
| ICall (b : builtin) (t : ty).

Definition isInput (b : builtin) : bool := match b with BScanf | BFscanf | BSscanf => true | _ => false end.
Definition isIO (b : builtin) : bool := match b with BPrintf | BFprintf | BSprintf | BScanf | BFscanf | BSscanf => true | _ => false end.
Definition isMath (b : builtin) : bool :=
  match b with BRound | BTrunc | BCeil | BFloor | BAbs | BFabs | BSqrt | BSin | BCos | BAtan | BAtan2 | BExp | BLog => true | _ => false end.

Section Parse.
(** doAssertImplicitTypeConv does not report an error for this destination and source (src/umka_expr.c:578-691). The
    conversion itself is one instruction here. *)
Variable conv : ty -> ty -> bool.
(** typeAssertCompatible, for the length of make and for formats (src/umka_types.c:506-530). *)
Variable compat : ty -> ty -> bool.
(** typeAssertCompatibleIOBuiltin for the value at this place (src/umka_types.c:551-572; src/umka_expr.c:875-882), with the
    format of the call at hand; after so many values the rest of the format needs no value (src/umka_expr.c:893-905). *)
Variable ioOk : builtin -> nat -> ty -> bool.
Variable ioEnd : builtin -> nat -> bool.
(** typeSize (src/umka_types.c:233-241), None if it reports an error. *)
Variable sizeOf : ty -> option Z.
(** typeAssertValidOperator for TOK_LESS (src/umka_types.c:575-622). *)
Variable less : ty -> bool.

(** The compiled call: code, result type, and the value in a constant expression. [n] is the next free temporary area
    (identAllocStack). *)
Definition parsed : Type := (list instr * ty * option val)%type.

(** parseExpr with a constant or without (src/umka_expr.c:3077-3168): code is generated only without. *)
Definition expr (k : bool) (a : arg) : option (list instr) :=
  if k then (if a_const a then Some [] else None) else Some [IEval a].
(** doAssertImplicitTypeConv: converts the constant or generates code. *)
Definition convert (k : bool) (d : ty) (a : arg) : option (list instr) :=
  if conv d (a_ty a) then Some (if k then [] else [IConv d]) else None.

Notation "'do' x <- e ; f" := (match e with Some x => f | None => None end) (at level 60, x pattern, f at level 200).

(** "Function is not allowed in constant expressions". *)
Definition runtimeOnly (k : bool) (r : option parsed) : option parsed := if k then None else r.
Definition emit (c : list instr) (t : ty) : option parsed := Some (c, t, None).

(** The loop over the values (src/umka_expr.c:869-888). *)
Fixpoint ioValues (b : builtin) (i : nat) (vs : list item) : option (list instr) :=
  match vs with
  | [] => Some []
  | XExpr a :: vs' =>
      if isInput b
      then match a_ty a with
           | TPtr t => if ioOk b i t then do c <- ioValues b (S i) vs'; Some (IEval a :: ICall b t :: c) else None
           | _ => None
           end
      else if ioOk b i (a_ty a) then do c <- ioValues b (S i) vs'; Some (IEval a :: ICall b (a_ty a) :: c) else None
  | _ => None
  end.

(** parseBuiltinIOCall after the stream (src/umka_expr.c:851-922). *)
Definition ioRest (b : builtin) (stream : list instr) (items : list item) : option parsed :=
  match items with
  | XExpr f :: vs =>
      if compat TStr (a_ty f) && ioEnd b (length vs) then
        do c <- ioValues b 0 vs;
        emit (IPush (VInt 0) :: stream ++ [IEval f] ++ c ++ [IPush (VInt 0); ICall b TVoid; IPop] ++
              (match b with BSprintf => [ISwap; IPop] | _ => [IPop] end))
             (match b with BSprintf => TStr | _ => TInt end)
      else None
  | _ => None
  end.
(** parseBuiltinIOCall (src/umka_expr.c:828-922). *)
Definition parseIO (b : builtin) (items : list item) : option parsed :=
  match b with
  | BFprintf | BFscanf | BSscanf =>
      let d := match b with BSscanf => TStr | _ => TFile end in
      match items with
      | XExpr s :: items' => do c <- convert false d s; ioRest b (IEval s :: c) items'
      | _ => None
      end
  | _ => ioRest b [IPush VNull] items
  end.

(** parseBuiltinMathCall (src/umka_expr.c:925-958). *)
Definition parseMath (k : bool) (b : builtin) (items : list item) : option parsed :=
  let d := match b with BAbs => TInt | _ => TReal end in
  let r := match b with BRound | BTrunc | BCeil | BFloor | BAbs => TInt | _ => TReal end in
  match b, items with
  | BAtan2, [XExpr y; XExpr x] =>
      do c1 <- expr k y; do c2 <- convert k d y; do c3 <- expr k x; do c4 <- convert k TReal x;
      if k then Some ([], r, Some (VRes b [VConv d (VExpr (a_id y)); VConv TReal (VExpr (a_id x))]))
      else emit (c1 ++ c2 ++ c3 ++ c4 ++ [ICall b d]) r
  | BAtan2, _ => None
  | _, [XExpr a] =>
      do c1 <- expr k a; do c2 <- convert k d a;
      if k then Some ([], r, Some (VRes b [VConv d (VExpr (a_id a))]))
      else emit (c1 ++ c2 ++ [ICall b d]) r
  | _, _ => None
  end.

(** parseBuiltinNewCall (src/umka_expr.c:961-987). *)
Definition parseNew (items : list item) : option parsed :=
  match items with
  | XType t :: items' =>
      match t with TVoid | TNull => None | _ =>
        match items' with
        | [] => emit [ICall BNew t] (TPtr t)
        | [XExpr a] => do c <- convert false t a; emit (ICall BNew t :: IDup :: IEval a :: c ++ [IAssign]) (TPtr t)
        | _ => None
        end
      end
  | _ => None
  end.

(** parseBuiltinMakeCall (src/umka_expr.c:990-1033); [fiberFn] is fiberType->base. *)
Variable fiberFn : ty.
Definition parseMake (n : Z) (items : list item) : option parsed :=
  match items with
  | [XType (TDyn b); XExpr a] =>
      if compat TInt (a_ty a) then emit [IEval a; IPushTemp n; ICall BMake (TDyn b)] (TDyn b) else None
  | [XType (TMap k i)] => emit [IPushTemp n; ICall BMake (TMap k i)] (TMap k i)
  | [XType TFiber; XExpr a] => do c <- convert false fiberFn a; emit (IEval a :: c ++ [ICall BMake TFiber]) TFiber
  | _ => None
  end.

(** parseBuiltinCopyCall (src/umka_expr.c:1036-1056). *)
Definition parseCopy (n : Z) (items : list item) : option parsed :=
  match items with
  | [XExpr a] =>
      match a_ty a with
      | TStr | TDyn _ | TMap _ _ =>
          emit (IEval a :: (if structured (a_ty a) then [IPushTemp n] else []) ++ [ICall BCopy (a_ty a)]) (a_ty a)
      | _ => None
      end
  | _ => None
  end.

(** The item of append and insert as a pointer (src/umka_expr.c:1088-1096, 1135-1143). *)
Definition itemPtr (n : Z) (b : ty) : list instr :=
  if structured b then [] else [IPushTemp n; ISwapAssign; IPushTemp n].

(** parseBuiltinAppendCall (src/umka_expr.c:1059-1108). *)
Definition parseAppend (n : Z) (items : list item) : option parsed :=
  match items with
  | [XExpr a; XExpr x] =>
      match a_ty a with
      | TDyn b =>
          let many c := emit (IEval a :: IEval x :: c ++ [IPush (VInt 0); IPushTemp (n + 1); ICall BAppend (TDyn b)]) (TDyn b) in
          let single :=
            do c <- convert false b x;
            emit (IEval a :: IEval x :: c ++ itemPtr n b ++ [IPush (VInt 1); IPushTemp (n + 1); ICall BAppend (TDyn b)]) (TDyn b) in
          if tyEq (TDyn b) (a_ty x) then many [] else
          match a_ty x with
          | TArray b' _ => if tyEq b b' then many [IConv (TDyn b)] else single
          | _ => single
          end
      | _ => None
      end
  | _ => None
  end.

(** parseBuiltinInsertCall (src/umka_expr.c:1111-1151). *)
Definition parseInsert (n : Z) (items : list item) : option parsed :=
  match items with
  | [XExpr a; XExpr i; XExpr x] =>
      match a_ty a with
      | TDyn b =>
          do c1 <- convert false TInt i; do c2 <- convert false b x;
          emit (IEval a :: IEval i :: c1 ++ IEval x :: c2 ++ itemPtr n b ++ [IPushTemp (n + 1); ICall BInsert (TDyn b)]) (TDyn b)
      | _ => None
      end
  | _ => None
  end.

(** parseBuiltinDeleteCall (src/umka_expr.c:1154-1180). *)
Definition parseDelete (n : Z) (items : list item) : option parsed :=
  match items with
  | [XExpr a; XExpr i] =>
      match match a_ty a with TDyn _ => Some TInt | TMap k _ => Some k | _ => None end with
      | Some d => do c <- convert false d i; emit (IEval a :: IEval i :: c ++ [IPushTemp n; ICall BDelete (a_ty a)]) (a_ty a)
      | None => None
      end
  | _ => None
  end.

(** parseBuiltinSliceCall (src/umka_expr.c:1183-1222). *)
Definition parseSlice (n : Z) (items : list item) : option parsed :=
  match items with
  | XExpr a :: XExpr i :: rest =>
      match a_ty a with
      | TDyn _ | TStr =>
          do c1 <- convert false TInt i;
          do c2 <- match rest with
                   | [] => Some [IPush (VInt (- 2 ^ 31))]
                   | [XExpr j] => do c <- convert false TInt j; Some (IEval j :: c)
                   | _ => None
                   end;
          emit (IEval a :: IEval i :: c1 ++ c2 ++ [match a_ty a with TDyn _ => IPushTemp n | _ => IPush VNull end; ICall BSlice (a_ty a)]) (a_ty a)
      | _ => None
      end
  | _ => None
  end.

(** parseBuiltinSortCall (src/umka_expr.c:1225-1298); [compareFn] is the type of the comparison for the items. *)
Variable compareFn : ty -> ty.
Definition parseSort (items : list item) : option parsed :=
  match items with
  | XExpr a :: XExpr x :: rest =>
      match a_ty a with
      | TDyn b =>
          if tyEq (a_ty x) TBool then
            match rest with
            | [] => if less b then emit [IEval a; IEval x; IPush (VInt 0); ICall BSortFast b] TVoid else None
            | [XField (Some (t, o))] =>
                match b with
                | TStruct _ => if less t then emit [IEval a; IEval x; IPush (VInt o); ICall BSortFast t] TVoid else None
                | _ => None
                end
            | _ => None
            end
          else
            match rest with
            | [] => do c <- convert false (compareFn b) x;
                    emit (IEval a :: IEval x :: c ++ [IPush (VType (compareFn b)); ICall BSort b]) TVoid
            | _ => None
            end
      | _ => None
      end
  | _ => None
  end.

(** parseBuiltinLenCall (src/umka_expr.c:1301-1351). *)
Definition parseLen (k : bool) (items : list item) : option parsed :=
  match items with
  | [XExpr a] =>
      do c <- expr k a;
      match a_ty a with
      | TArray _ m => if k then Some ([], TInt, Some (VInt m)) else emit (c ++ [IPop; IPush (VInt m)]) TInt
      | TStr => if k then Some ([], TInt, Some (VRes BLen [VExpr (a_id a)])) else emit (c ++ [ICall BLen TStr]) TInt
      | TDyn b => runtimeOnly k (emit (c ++ [ICall BLen (TDyn b)]) TInt)
      | TMap x y => runtimeOnly k (emit (c ++ [ICall BLen (TMap x y)]) TInt)
      | _ => None
      end
  | _ => None
  end.

(** parseBuiltinCapCall (src/umka_expr.c:1354-1385). *)
Definition parseCap (k : bool) (items : list item) : option parsed :=
  match items with
  | [XExpr a] =>
      do c <- expr k a;
      match a_ty a with
      | TStr => if k then Some ([], TInt, Some (VRes BCap [VExpr (a_id a)])) else emit (c ++ [ICall BCap TStr]) TInt
      | TDyn b => runtimeOnly k (emit (c ++ [ICall BCap (TDyn b)]) TInt)
      | _ => None
      end
  | _ => None
  end.

(** parseBuiltinSizeOfCall (src/umka_expr.c:1388-1426); only a name followed by the parenthesis is a type. The pop is generated for constants too. *)
Definition parseSizeOf (k : bool) (items : list item) : option parsed :=
  match items with
  | [XType t] => do s <- sizeOf t; if k then Some ([], TInt, Some (VInt s)) else emit [IPush (VInt s)] TInt
  | [XExpr a] =>
      do c <- expr k a;
      let c' := c ++ (match a_ty a with TVoid => [] | _ => [IPop] end) in
      do s <- sizeOf (a_ty a);
      if k then Some (c', TInt, Some (VInt s)) else emit (c' ++ [IPush (VInt s)]) TInt
  | _ => None
  end.

(** parseBuiltinSizeOfSelfCall, SelfPtr, SelfHasPtr (src/umka_expr.c:1429-1468). *)
Definition parseSelf (b : builtin) (r : ty) (items : list item) : option parsed :=
  match items with
  | [XExpr a] => match a_ty a with TIface i => emit [IEval a; ICall b (TIface i)] r | _ => None end
  | _ => None
  end.

(** parseBuiltinSelfTypeEqCall (src/umka_expr.c:1471-1490). *)
Definition parseSelfTypeEq (items : list item) : option parsed :=
  match items with
  | [XExpr a; XExpr b] =>
      match a_ty a, a_ty b with TIface _, TIface j => emit [IEval a; IEval b; ICall BSelfTypeEq (TIface j)] TBool | _, _ => None end
  | _ => None
  end.

(** parseBuiltinTypePtrCall (src/umka_expr.c:1493-1505). *)
Definition parseTypePtr (k : bool) (items : list item) : option parsed :=
  match items with
  | [XType t] =>
      match t with TVoid | TNull => None
      | _ => if k then Some ([], TPtr TVoid, Some (VType t)) else emit [IPush (VType t)] (TPtr TVoid)
      end
  | _ => None
  end.

(** parseBuiltinValidCall (src/umka_expr.c:1508-1520). *)
Definition parseValid (items : list item) : option parsed :=
  match items with
  | [XExpr a] =>
      match a_ty a with
      | TDyn _ | TMap _ _ | TIface _ | TFn _ | TClosure _ | TFiber => emit [IEval a; ICall BValid (a_ty a)] TBool
      | _ => None
      end
  | _ => None
  end.

(** parseBuiltinValidKeyCall (src/umka_expr.c:1523-1543). *)
Definition parseValidKey (items : list item) : option parsed :=
  match items with
  | [XExpr a; XExpr x] =>
      match a_ty a with
      | TMap d i => do c <- convert false d x; emit (IEval a :: IEval x :: c ++ [ICall BValidKey (TMap d i)]) TBool
      | _ => None
      end
  | _ => None
  end.

(** parseBuiltinKeysCall (src/umka_expr.c:1546-1566). *)
Definition parseKeys (n : Z) (items : list item) : option parsed :=
  match items with
  | [XExpr a] =>
      match a_ty a with TMap d _ => emit [IEval a; IPushTemp n; ICall BKeys (TDyn d)] (TDyn d) | _ => None end
  | _ => None
  end.

(** parseBuiltinResumeCall (src/umka_expr.c:1569-1589). *)
Definition parseResume (items : list item) : option parsed :=
  match items with
  | [] => emit [IPush VNull; ICall BResume TVoid] TVoid
  | [XExpr a] => do c <- convert false TFiber a; emit (IEval a :: c ++ [ICall BResume TVoid]) TVoid
  | _ => None
  end.

(** parseBuiltinLeakSanCall (src/umka_expr.c:1604-1616). *)
Definition parseLeakSan (items : list item) : option parsed :=
  match items with
  | [XExpr a] => do c <- convert false TInt a; emit (IEval a :: c ++ [ICall BLeakSan TVoid]) TVoid
  | _ => None
  end.

(** parseBuiltinExitCall (src/umka_expr.c:1619-1643). *)
Definition parseExit (items : list item) : option parsed :=
  match items with
  | [XExpr a] => do c <- convert false TInt a; emit (IEval a :: c ++ [IPush VEmpty; ICall BExit TVoid]) TVoid
  | [XExpr a; XExpr m] =>
      do c <- convert false TInt a; do d <- convert false TStr m;
      emit (IEval a :: c ++ IEval m :: d ++ [ICall BExit TVoid]) TVoid
  | _ => None
  end.

(** parseBuiltinCall (src/umka_expr.c:1646-1717). *)
Definition parseCall (k : bool) (n : Z) (b : builtin) (items : list item) : option parsed :=
  match b with
  | BPrintf | BFprintf | BSprintf | BScanf | BFscanf | BSscanf => runtimeOnly k (parseIO b items)
  | BRound | BTrunc | BCeil | BFloor | BAbs | BFabs | BSqrt | BSin | BCos | BAtan | BAtan2 | BExp | BLog => parseMath k b items
  | BNew => runtimeOnly k (parseNew items)
  | BMake => runtimeOnly k (parseMake n items)
  | BCopy => runtimeOnly k (parseCopy n items)
  | BAppend => runtimeOnly k (parseAppend n items)
  | BInsert => runtimeOnly k (parseInsert n items)
  | BDelete => runtimeOnly k (parseDelete n items)
  | BSlice => runtimeOnly k (parseSlice n items)
  | BSort => runtimeOnly k (parseSort items)
  | BSortFast => None
  | BLen => parseLen k items
  | BCap => parseCap k items
  | BSizeOf => parseSizeOf k items
  | BSizeOfSelf => runtimeOnly k (parseSelf BSizeOfSelf TInt items)
  | BSelfPtr => runtimeOnly k (parseSelf BSelfPtr (TPtr TVoid) items)
  | BSelfHasPtr => runtimeOnly k (parseSelf BSelfHasPtr TBool items)
  | BSelfTypeEq => runtimeOnly k (parseSelfTypeEq items)
  | BTypePtr => parseTypePtr k items
  | BValid => runtimeOnly k (parseValid items)
  | BValidKey => runtimeOnly k (parseValidKey items)
  | BKeys => runtimeOnly k (parseKeys n items)
  | BResume => runtimeOnly k (parseResume items)
  | BMemUsage => runtimeOnly k (match items with [] => emit [ICall BMemUsage TInt] TInt | _ => None end)
  | BLeakSan => runtimeOnly k (parseLeakSan items)
  | BExit => runtimeOnly k (parseExit items)
  end.
End Parse.

(** The machine: the stack from its top, what pointers point to, the next heap cell and what was seen outside. *)
Record state : Type := MkS { st_stack : list val; st_mem : place -> val; st_next : Z; st_seen : list effect }.
Inductive result : Type := Running (s : state) | Exited (seen : list effect) | Stuck.

Definition placeEq (p q : place) : bool :=
  match p, q with PTemp a, PTemp b | PHeap a, PHeap b => a =? b | _, _ => false end.
Definition store (m : place -> val) (p : place) (v : val) : place -> val := fun q => if placeEq q p then v else m q.
(** What an address on the stack stands for. *)
Definition deref (m : place -> val) (v : val) : val := match v with VPtr p => m p | _ => v end.

(** The result is written where the hidden parameter points, which is pushed (src/umka_vm.c:2234, 2400, 2498, 2548, ...). *)
Definition putResult (s : list val) (m : place -> val) (nx : Z) (seen : list effect) (r : val) (v : val) : result :=
  match r with VPtr p => Running (MkS (r :: s) (store m p v) nx seen) | _ => Stuck end.
Definition pushVal (s : list val) (m : place -> val) (nx : Z) (seen : list effect) (v : val) : result := Running (MkS (v :: s) m nx seen).

(** doBuiltinPrintf and doBuiltinScanf on the four slots of src/umka_vm.c:1944-1950 (src/umka_vm.c:1953-2208). *)
Definition callIO (b : builtin) (t : ty) (st : state) : result :=
  match st_stack st with
  | v :: f :: s :: c :: rest =>
      let e := EIO b s f t v in
      let s' := match b with BSprintf | BSscanf => VStream s e | _ => s end in
      let seen := match b with BSprintf => st_seen st | _ => st_seen st ++ [FIO e] end in
      Running (MkS (VRest f e :: s' :: VCount c e :: rest) (st_mem st) (st_next st) seen)
  | _ => Stuck
  end.

(** doCallBuiltin (src/umka_vm.c:3873-3982) and the functions it calls (src/umka_vm.c:2211-3087): which slots are taken in
    which order. *)
Definition callBuiltin (b : builtin) (t : ty) (st : state) : result :=
  let s := st_stack st in
  let m := st_mem st in
  let nx := st_next st in
  let seen := st_seen st in
  match b with
  | BPrintf | BFprintf | BSprintf | BScanf | BFscanf | BSscanf => callIO b t st
  | BAtan2 => match s with x :: y :: s' => pushVal s' m nx seen (VRes b [y; x]) | _ => Stuck end
  | BRound | BTrunc | BCeil | BFloor | BAbs | BFabs | BSqrt | BSin | BCos | BAtan | BExp | BLog =>
      match s with x :: s' => pushVal s' m nx seen (VRes b [x]) | _ => Stuck end
  | BNew => Running (MkS (VPtr (PHeap nx) :: s) (store m (PHeap nx) (VRes BNew [VType t])) (nx + 1) seen)
  | BMake =>
      match t, s with
      | TDyn _, r :: len :: s' => putResult s' m nx seen r (VRes BMake [VType t; len])
      | TMap _ _, r :: s' => putResult s' m nx seen r (VRes BMake [VType t])
      | TFiber, f :: s' => pushVal s' m nx seen (VRes BMake [VType t; f])
      | _, _ => Stuck
      end
  | BCopy =>
      match t, s with
      | TStr, x :: s' => pushVal s' m nx seen (VRes BCopy [x])
      | (TDyn _ | TMap _ _), r :: x :: s' => putResult s' m nx seen r (VRes BCopy [x])
      | _, _ => Stuck
      end
  | BAppend =>
      match s with
      | r :: VInt single :: x :: a :: s' =>
          putResult s' m nx seen r (VRes BAppend [a; VInt single; if single =? 0 then x else deref m x])
      | _ => Stuck
      end
  | BInsert => match s with r :: x :: i :: a :: s' => putResult s' m nx seen r (VRes BInsert [a; i; deref m x]) | _ => Stuck end
  | BDelete => match s with r :: i :: a :: s' => putResult s' m nx seen r (VRes BDelete [a; i]) | _ => Stuck end
  | BSlice =>
      match t, s with
      | TDyn _, r :: j :: i :: a :: s' => putResult s' m nx seen r (VRes BSlice [a; i; j])
      | TStr, _ :: j :: i :: a :: s' => pushVal s' m nx seen (VRes BSlice [a; i; j])
      | _, _ => Stuck
      end
  | BSort => match s with VType ct :: x :: a :: s' => Running (MkS s' m nx (seen ++ [FDo BSort [a; x; VType ct]])) | _ => Stuck end
  | BSortFast => match s with o :: x :: a :: s' => Running (MkS s' m nx (seen ++ [FDo BSortFast [a; x; o; VType t]])) | _ => Stuck end
  | BLen => match t, s with (TDyn _ | TStr | TMap _ _), x :: s' => pushVal s' m nx seen (VRes BLen [x]) | _, _ => Stuck end
  | BCap => match t, s with (TDyn _ | TStr), x :: s' => pushVal s' m nx seen (VRes BCap [x]) | _, _ => Stuck end
  | BSizeOf | BTypePtr => Stuck
  | BSizeOfSelf | BSelfPtr | BSelfHasPtr => match s with x :: s' => pushVal s' m nx seen (VRes b [x]) | _ => Stuck end
  | BSelfTypeEq => match s with y :: x :: s' => pushVal s' m nx seen (VRes b [x; y]) | _ => Stuck end
  | BValid =>
      match t, s with
      | (TDyn _ | TMap _ _ | TIface _ | TFn _ | TClosure _ | TFiber), x :: s' => pushVal s' m nx seen (VRes b [x])
      | _, _ => Stuck
      end
  | BValidKey => match s with x :: a :: s' => pushVal s' m nx seen (VRes b [a; x]) | _ => Stuck end
  | BKeys => match s with r :: a :: s' => putResult s' m nx seen r (VRes BKeys [a]) | _ => Stuck end
  | BResume => match s with x :: s' => Running (MkS s' m nx (seen ++ [FDo BResume [x]])) | _ => Stuck end
  | BMemUsage => pushVal s m nx seen (VRes BMemUsage [])
  | BLeakSan => match s with x :: s' => Running (MkS s' m nx (seen ++ [FDo BLeakSan [x]])) | _ => Stuck end
  | BExit => match s with msg :: c :: _ => Exited (seen ++ [FDo BExit [c; msg]]) | _ => Stuck end
  end.

(** One instruction. An expression leaves its value, a call without result nothing (src/umka_vm.c:4062-4151). *)
Definition exec1 (i : instr) (st : state) : result :=
  let '(MkS s m nx seen) := st in
  match i with
  | IEval a => match a_ty a with TVoid => Running st | _ => pushVal s m nx seen (VExpr (a_id a)) end
  | IConv t => match s with v :: s' => pushVal s' m nx seen (VConv t v) | _ => Stuck end
  | IPush v => pushVal s m nx seen v
  | IPushTemp o => pushVal s m nx seen (VPtr (PTemp o))
  | ISwapAssign => match s with VPtr p :: v :: s' => Running (MkS s' (store m p v) nx seen) | _ => Stuck end
  | IAssign => match s with v :: VPtr p :: s' => Running (MkS s' (store m p v) nx seen) | _ => Stuck end
  | IPop => match s with _ :: s' => Running (MkS s' m nx seen) | _ => Stuck end
  | IDup => match s with v :: s' => Running (MkS (v :: v :: s') m nx seen) | _ => Stuck end
  | ISwap => match s with a :: b :: s' => Running (MkS (b :: a :: s') m nx seen) | _ => Stuck end
  | ICall b t => callBuiltin b t st
  end.
Fixpoint exec (c : list instr) (st : state) : result :=
  match c with
  | [] => Running st
  | i :: c' => match exec1 i st with Running st' => exec c' st' | r => r end
  end.

(** What calls of built-in functions mean, from the signatures in the documentation. *)
From Coq Require Import ZArith Bool List.
From Verif Require Import BuiltinModel.
Import ListNotations.
Local Open Scope Z_scope.

(** A call does something outside and leaves nothing, a value, or a pointer to a new variable with a value; or it ends the
    program. *)
Inductive res : Type := RNone | RVal (v : val) | RCell (v : val) | RQuit.
Definition meaning : Type := (list effect * res)%type.

Definition plain (a : arg) : val := VExpr (a_id a).
Definition as_ (d : ty) (a : arg) : val := VConv d (plain a).

(** Input and output: each value is formatted with the rest of the format; the text left at the end comes last. *)
Fixpoint io_events (b : builtin) (s f : val) (vs : list (ty * val)) : list event :=
  match vs with
  | [] => [EIO b s f TVoid (VInt 0)]
  | (t, v) :: vs' =>
      let e := EIO b s f t v in
      e :: io_events b (match b with BSprintf | BSscanf => VStream s e | _ => s end) (VRest f e) vs'
  end.
Definition io_meaning (b : builtin) (s f : val) (vs : list (ty * val)) : meaning :=
  let es := io_events b s f vs in
  match b with
  | BSprintf => ([], RVal (fold_left VStream es s))
  | _ => (map FIO es, RVal (fold_left VCount es (VInt 0)))
  end.

Section Spec.
Variables (conv compat : ty -> ty -> bool) (ioOk : builtin -> nat -> ty -> bool) (ioEnd : builtin -> nat -> bool) (sizeOf : ty -> option Z) (less : ty -> bool).
Variables (fiberFn : ty) (compareFn : ty -> ty).

Inductive io_vals (b : builtin) : nat -> list item -> list (ty * val) -> Prop :=
| iv_nil i : io_vals b i [] []
| iv_out i a l vs : isInput b = false -> ioOk b i (a_ty a) = true -> io_vals b (S i) l vs ->
    io_vals b i (XExpr a :: l) ((a_ty a, plain a) :: vs)
| iv_in i a t l vs : isInput b = true -> a_ty a = TPtr t -> ioOk b i t = true -> io_vals b (S i) l vs ->
    io_vals b i (XExpr a :: l) ((t, plain a) :: vs).

(** The signature of a mathematical function of one argument: argument and result. *)
Inductive math1 : builtin -> ty -> ty -> Prop :=
| m_to_int b : In b [BRound; BTrunc; BCeil; BFloor] -> math1 b TReal TInt
| m_int : math1 BAbs TInt TInt
| m_real b : In b [BFabs; BSqrt; BSin; BCos; BAtan; BExp; BLog] -> math1 b TReal TReal.

Inductive means : builtin -> list item -> ty -> meaning -> Prop :=
| s_print b f l vs r : In b [BPrintf; BScanf; BSprintf] -> compat TStr (a_ty f) = true -> io_vals b 0 l vs -> ioEnd b (length l) = true ->
    r = match b with BSprintf => TStr | _ => TInt end ->
    means b (XExpr f :: l) r (io_meaning b VNull (plain f) vs)
| s_fprint b d s f l vs : (In b [BFprintf; BFscanf] /\ d = TFile) \/ (b = BSscanf /\ d = TStr) ->
    conv d (a_ty s) = true -> compat TStr (a_ty f) = true -> io_vals b 0 l vs -> ioEnd b (length l) = true ->
    means b (XExpr s :: XExpr f :: l) TInt (io_meaning b (as_ d s) (plain f) vs)
| s_math b d r a : math1 b d r -> conv d (a_ty a) = true -> means b [XExpr a] r ([], RVal (VRes b [as_ d a]))
| s_atan2 y x : conv TReal (a_ty y) = true -> conv TReal (a_ty x) = true ->
    means BAtan2 [XExpr y; XExpr x] TReal ([], RVal (VRes BAtan2 [as_ TReal y; as_ TReal x]))
| s_new t : t <> TVoid -> t <> TNull -> means BNew [XType t] (TPtr t) ([], RCell (VRes BNew [VType t]))
| s_new_val t a : t <> TVoid -> t <> TNull -> conv t (a_ty a) = true -> means BNew [XType t; XExpr a] (TPtr t) ([], RCell (as_ t a))
| s_make_dyn b a : compat TInt (a_ty a) = true ->
    means BMake [XType (TDyn b); XExpr a] (TDyn b) ([], RVal (VRes BMake [VType (TDyn b); plain a]))
| s_make_map k i : means BMake [XType (TMap k i)] (TMap k i) ([], RVal (VRes BMake [VType (TMap k i)]))
| s_make_fiber a : conv fiberFn (a_ty a) = true ->
    means BMake [XType TFiber; XExpr a] TFiber ([], RVal (VRes BMake [VType TFiber; as_ fiberFn a]))
| s_copy a t : a_ty a = t -> (t = TStr \/ (exists b, t = TDyn b) \/ (exists k i, t = TMap k i)) ->
    means BCopy [XExpr a] t ([], RVal (VRes BCopy [plain a]))
| s_append_same a x b : a_ty a = TDyn b -> a_ty x = TDyn b ->
    means BAppend [XExpr a; XExpr x] (TDyn b) ([], RVal (VRes BAppend [plain a; VInt 0; plain x]))
| s_append_array a x b n : a_ty a = TDyn b -> a_ty x = TArray b n ->
    means BAppend [XExpr a; XExpr x] (TDyn b) ([], RVal (VRes BAppend [plain a; VInt 0; as_ (TDyn b) x]))
| s_append_item a x b : a_ty a = TDyn b -> a_ty x <> TDyn b -> (forall n, a_ty x <> TArray b n) -> conv b (a_ty x) = true ->
    means BAppend [XExpr a; XExpr x] (TDyn b) ([], RVal (VRes BAppend [plain a; VInt 1; as_ b x]))
| s_insert a i x b : a_ty a = TDyn b -> conv TInt (a_ty i) = true -> conv b (a_ty x) = true ->
    means BInsert [XExpr a; XExpr i; XExpr x] (TDyn b) ([], RVal (VRes BInsert [plain a; as_ TInt i; as_ b x]))
| s_delete a i b : a_ty a = TDyn b -> conv TInt (a_ty i) = true ->
    means BDelete [XExpr a; XExpr i] (TDyn b) ([], RVal (VRes BDelete [plain a; as_ TInt i]))
| s_delete_key a x k i : a_ty a = TMap k i -> conv k (a_ty x) = true ->
    means BDelete [XExpr a; XExpr x] (TMap k i) ([], RVal (VRes BDelete [plain a; as_ k x]))
| s_slice a i t : a_ty a = t -> (t = TStr \/ exists b, t = TDyn b) -> conv TInt (a_ty i) = true ->
    means BSlice [XExpr a; XExpr i] t ([], RVal (VRes BSlice [plain a; as_ TInt i; VInt (-2147483648)]))
| s_slice_end a i j t : a_ty a = t -> (t = TStr \/ exists b, t = TDyn b) -> conv TInt (a_ty i) = true -> conv TInt (a_ty j) = true ->
    means BSlice [XExpr a; XExpr i; XExpr j] t ([], RVal (VRes BSlice [plain a; as_ TInt i; as_ TInt j]))
| s_sort a x b : a_ty a = TDyn b -> a_ty x <> TBool -> conv (compareFn b) (a_ty x) = true ->
    means BSort [XExpr a; XExpr x] TVoid ([FDo BSort [plain a; as_ (compareFn b) x; VType (compareFn b)]], RNone)
| s_sort_fast a x b : a_ty a = TDyn b -> a_ty x = TBool -> less b = true ->
    means BSort [XExpr a; XExpr x] TVoid ([FDo BSortFast [plain a; plain x; VInt 0; VType b]], RNone)
| s_sort_field a x i t o : a_ty a = TDyn (TStruct i) -> a_ty x = TBool -> less t = true ->
    means BSort [XExpr a; XExpr x; XField (Some (t, o))] TVoid ([FDo BSortFast [plain a; plain x; VInt o; VType t]], RNone)
| s_len_array a b n : a_ty a = TArray b n -> means BLen [XExpr a] TInt ([], RVal (VInt n))
| s_len a : (a_ty a = TStr \/ (exists b, a_ty a = TDyn b) \/ exists k i, a_ty a = TMap k i) ->
    means BLen [XExpr a] TInt ([], RVal (VRes BLen [plain a]))
| s_cap a : (a_ty a = TStr \/ exists b, a_ty a = TDyn b) -> means BCap [XExpr a] TInt ([], RVal (VRes BCap [plain a]))
| s_sizeof_type t n : sizeOf t = Some n -> means BSizeOf [XType t] TInt ([], RVal (VInt n))
| s_sizeof a n : sizeOf (a_ty a) = Some n -> means BSizeOf [XExpr a] TInt ([], RVal (VInt n))
| s_self b r a i : In (b, r) [(BSizeOfSelf, TInt); (BSelfPtr, TPtr TVoid); (BSelfHasPtr, TBool)] -> a_ty a = TIface i ->
    means b [XExpr a] r ([], RVal (VRes b [plain a]))
| s_selftypeeq x y i j : a_ty x = TIface i -> a_ty y = TIface j ->
    means BSelfTypeEq [XExpr x; XExpr y] TBool ([], RVal (VRes BSelfTypeEq [plain x; plain y]))
| s_typeptr t : t <> TVoid -> t <> TNull -> means BTypePtr [XType t] (TPtr TVoid) ([], RVal (VType t))
| s_valid a : (a_ty a = TFiber \/ (exists b, a_ty a = TDyn b) \/ (exists k i, a_ty a = TMap k i) \/
               exists i, a_ty a = TIface i \/ a_ty a = TFn i \/ a_ty a = TClosure i) ->
    means BValid [XExpr a] TBool ([], RVal (VRes BValid [plain a]))
| s_validkey a x k i : a_ty a = TMap k i -> conv k (a_ty x) = true ->
    means BValidKey [XExpr a; XExpr x] TBool ([], RVal (VRes BValidKey [plain a; as_ k x]))
| s_keys a k i : a_ty a = TMap k i -> means BKeys [XExpr a] (TDyn k) ([], RVal (VRes BKeys [plain a]))
| s_yield : means BResume [] TVoid ([FDo BResume [VNull]], RNone)
| s_resume a : conv TFiber (a_ty a) = true -> means BResume [XExpr a] TVoid ([FDo BResume [as_ TFiber a]], RNone)
| s_memusage : means BMemUsage [] TInt ([], RVal (VRes BMemUsage []))
| s_leaksan a : conv TInt (a_ty a) = true -> means BLeakSan [XExpr a] TVoid ([FDo BLeakSan [as_ TInt a]], RNone)
| s_exit a : conv TInt (a_ty a) = true -> means BExit [XExpr a] TVoid ([FDo BExit [as_ TInt a; VEmpty]], RQuit)
| s_exit_msg a m : conv TInt (a_ty a) = true -> conv TStr (a_ty m) = true ->
    means BExit [XExpr a; XExpr m] TVoid ([FDo BExit [as_ TInt a; as_ TStr m]], RQuit).
End Spec.

(** Nothing is left of the call but its result: the stack below it is as before, and so is all memory but the two temporary
    areas of the call and new variables. *)
Definition kept (n : Z) (st st' : state) : Prop :=
  st_next st <= st_next st' /\
  forall p, p <> PTemp n -> p <> PTemp (n + 1) -> (forall h, p = PHeap h -> h < st_next st) -> st_mem st' p = st_mem st p.
Definition value_at (st : state) (v : val) : val := match v with VPtr p => st_mem st p | _ => v end.
Definition meets (n : Z) (st : state) (m : meaning) (r : result) : Prop :=
  match snd m, r with
  | RQuit, Exited seen => seen = st_seen st ++ fst m
  | RNone, Running st' => st_stack st' = st_stack st /\ st_seen st' = st_seen st ++ fst m /\ kept n st st'
  | RVal v, Running st' =>
      exists top, st_stack st' = top :: st_stack st /\ value_at st' top = v /\ st_seen st' = st_seen st ++ fst m /\ kept n st st'
  | RCell v, Running st' =>
      exists h, st_stack st' = VPtr (PHeap h) :: st_stack st /\ st_next st <= h < st_next st' /\ st_mem st' (PHeap h) = v /\
                st_seen st' = st_seen st ++ fst m /\ kept n st st'
  | _, _ => False
  end.

(** The calls allowed in constant expressions. *)
Definition constant_call (b : builtin) (items : list item) : Prop :=
  Forall (fun x => match x with XExpr a => a_const a = true | _ => True end) items /\
  (In b [BRound; BTrunc; BCeil; BFloor; BAbs; BFabs; BSqrt; BSin; BCos; BAtan; BAtan2; BExp; BLog; BSizeOf; BTypePtr] \/
   (b = BLen /\ exists a, items = [XExpr a] /\ (a_ty a = TStr \/ exists t n, a_ty a = TArray t n)) \/
   (b = BCap /\ exists a, items = [XExpr a] /\ a_ty a = TStr)).

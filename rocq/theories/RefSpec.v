(** Specification for RefModel.v: which references there are, and who holds them. *)
From Coq Require Import ZArith Lia Bool List.
From Verif Require Import Base RefModel.
Import ListNotations.
Local Open Scope Z_scope.

(** ** The references in a value of a type *)
(** A place for a reference: a pointer, string, fiber, the data of a dynamic array, the value of an interface, the stack of a fiber. *)
Inductive slot : Type := SPtr (base : nat) | SStr | SFib | SDyn (item : nat) | SIface | SStack.
Definition shift (d : Z) (l : list (Z * slot)) : list (Z * slot) := map (fun p => (d + fst p, snd p)) l.
Fixpoint slots (t : ty) : list (Z * slot) :=
  match t with
  | TPlain _ => []
  | TPtr b => [(0, SPtr b)]
  | TStr => [(0, SStr)]
  | TFiber => [(0, SFib)]
  | TArray u n => flat_map (fun i => shift (Z.of_nat i * sizeOf u) (slots u)) (seq 0 n)
  | TDyn it => [(16, SDyn it)]
  | TMap nd => [(8, SPtr nd)]
  | TStruct fs _ => (fix go fs := match fs with [] => [] | (o, u) :: r => shift o (slots u) ++ go r end) fs
  | TIface _ => [(0, SIface)]
  end.
(** The size of the place and of the type descriptor beside it. *)
Definition width (s : slot) : Z := match s with SIface => 16 | _ => 8 end.

(** The chunk a cell refers to. *)
Definition tgt (w : word) : list nat := match w with WPtr (AHeap b _) => [b] | _ => [] end.
Definition refsAt (m : mem) (a : addr) (l : list (Z * slot)) : list nat := flat_map (fun p => tgt (read m (plus a (fst p)))) l.

Section Spec.
Variable env : nat -> ty.
(** The references in the data of a chunk. *)
Definition objSlots (m : mem) (b : nat) : list (Z * slot) :=
  match c_obj (chunkAt m b) with
  | OVal t => slots t
  | OItems it => shift 16 (slots (TArray (env it) (lenOf (read m (AHeap b 0)))))
  | OFiber => [(FIBER_STACK, SStack)]
  | OStr | OStack => []
  end.
Definition objRefs (m : mem) (b : nat) : list nat := refsAt m (AHeap b 0) (objSlots m b).
Definition live (m : mem) (b : nat) : bool := 0 <? c_ref (chunkAt m b).
Definition blocks (m : mem) : list nat := seq 0 (length (heap m)).
(** All references held by variables, and by chunks that are not released. *)
Definition varRefs (m : mem) (vs : list (Z * ty)) : list nat := flat_map (fun v => refsAt m (AVar (fst v)) (slots (snd v))) vs.
Definition heapRefs (m : mem) : list nat := flat_map (fun b => if live m b then objRefs m b else []) (blocks m).
Definition cnt (b : nat) (l : list nat) : Z := Z.of_nat (count_occ Nat.eq_dec l b).

(** ** Types of pointers *)
(** A pointer to (a part of) a variable in the heap. A pointer to a chunk without inner structure points to its start and has the type of
    its contents (a pointer of type ^void to a pointer, string, dynamic array or fiber is excluded: see C42_refuted). *)
Definition composite (t : ty) : bool := match t with TArray _ _ | TMap _ | TStruct _ _ | TIface _ => true | _ => false end.
Definition ptrOk (m : mem) (base : nat) (w : word) : Prop :=
  match w with
  | WPtr (AHeap b o) =>
      (b < length (heap m))%nat /\
      match c_obj (chunkAt m b) with
      | OVal t => composite t = true \/ (o = 0 /\ env base = t) \/ (hasPtr t = false /\ hasPtr (env base) = false)
      | OItems _ => True
      | _ => False
      end
  | _ => True
  end.
Definition slotOk (m : mem) (a : addr) (p : Z * slot) : Prop :=
  let w := read m (plus a (fst p)) in
  match snd p with
  | SPtr base => ptrOk m base w
  | SIface => w = WInt 0 \/ exists base, read m (plus a (fst p + 8)) = WTy (TPtr base) /\ ptrOk m base w
  | SStr => match w with WPtr (AHeap b _) => (b < length (heap m))%nat /\ c_obj (chunkAt m b) = OStr | _ => True end
  | SFib => match w with WPtr (AHeap b o) => (b < length (heap m))%nat /\ c_obj (chunkAt m b) = OFiber | _ => True end
  | SDyn it => match w with WPtr (AHeap b o) => (b < length (heap m))%nat /\ c_obj (chunkAt m b) = OItems it /\ o = 16 | _ => True end
  | SStack => exists b o, w = WPtr (AHeap b o) /\ (b < length (heap m))%nat /\ c_obj (chunkAt m b) = OStack
  end.
Definition slotsOk (m : mem) (a : addr) (l : list (Z * slot)) : Prop := Forall (slotOk m a) l.

(** ** Places in memory *)
(** Fields do not overlap and lie within their structure. *)
Fixpoint wfT (t : ty) : Prop :=
  match t with
  | TPlain s => 0 <= s
  | TArray u _ => wfT u
  | TStruct fs s =>
      0 <= s /\ (fix go (from : Z) (fs : list (Z * ty)) : Prop := match fs with [] => from <= s | (o, u) :: r => from <= o /\ wfT u /\ go (o + sizeOf u) r end) 0 fs
  | TIface s => 16 <= s
  | _ => True
  end.
(** A part of a value. *)
Inductive Sub : ty -> Z -> ty -> Prop :=
| SubHere t : Sub t 0 t
| SubItem u n i o t : (i < n)%nat -> Sub u o t -> Sub (TArray u n) (Z.of_nat i * sizeOf u + o) t
| SubField fs s o u p t : In (o, u) fs -> Sub u p t -> Sub (TStruct fs s) (o + p) t.
(** The value in a chunk: its offset and type. *)
Definition content (m : mem) (b : nat) : option (Z * ty) :=
  match c_obj (chunkAt m b) with
  | OVal t => Some (0, t)
  | OItems it => Some (16, TArray (env it) (lenOf (read m (AHeap b 0))))
  | _ => None
  end.
(** [a] is (a part of) a variable, or of a chunk for which [P] holds. *)
Definition placeIn (m : mem) (vs : list (Z * ty)) (P : nat -> Prop) (a : addr) (t : ty) : Prop :=
  match a with
  | AVar z => exists x T o, In (x, T) vs /\ Sub T o t /\ z = x + o
  | AHeap b z => (b < length (heap m))%nat /\ P b /\ exists x T o, content m b = Some (x, T) /\ Sub T o t /\ z = x + o
  end.
(** The chunks that can be reached from variables. *)
Inductive reachable (m : mem) (vs : list (Z * ty)) : nat -> Prop :=
| ReachVar b : In b (varRefs m vs) -> reachable m vs b
| ReachObj b c : reachable m vs b -> In c (objRefs m b) -> reachable m vs c.
Definition source (s : state) (a : addr) (t : ty) : Prop := placeIn (fst s) (snd s) (fun b => live (fst s) b = true) a t.
Definition target (s : state) (a : addr) (t : ty) : Prop := placeIn (fst s) (snd s) (reachable (fst s) (snd s)) a t.

(** ** The claim *)
Definition apart (z n z' n' : Z) : Prop := z + n <= z' \/ z' + n' <= z.
Definition separate (vs : list (Z * ty)) : Prop := ForallOrdPairs (fun v w => apart (fst v) (sizeOf (snd v)) (fst w) (sizeOf (snd w))) vs.
(** Every reference in use is well-typed. *)
Definition typed (s : state) : Prop :=
  Forall (fun v => wfT (snd v) /\ slotsOk (fst s) (AVar (fst v)) (slots (snd v))) (snd s) /\ separate (snd s) /\
  forall b, live (fst s) b = true ->
    slotsOk (fst s) (AHeap b 0) (objSlots (fst s) b) /\ match content (fst s) b with Some (_, T) => wfT T | None => True end.
(** The reference count of every chunk is the number of references to it. *)
Definition exact (s : state) : Prop := forall b, (b < length (heap (fst s)))%nat -> c_ref (chunkAt (fst s) b) = cnt b (varRefs (fst s) (snd s) ++ heapRefs (fst s)).
Definition good (s : state) : Prop := typed s /\ exact s.

(** The number of items of the dynamic array at an address. *)
Definition itemsAt (m : mem) (a : addr) : Z := match read m (plus a 16) with WPtr (AHeap b _) => Z.of_nat (lenOf (read m (AHeap b 0))) | _ => 0 end.
(** New variables do not overlap others. *)
Definition fresh (s : state) (z : Z) (t : ty) : Prop := wfT t /\ Forall (fun v => apart z (sizeOf t) (fst v) (sizeOf (snd v))) (snd s).
(** The operations of well-typed programs. *)
Definition allowed (s : state) (o : op) : Prop :=
  match o with
  | ODecl z t => fresh s z t
  | OAssign a b t => target s a t /\ source s b t
  | OCopy z b t => fresh s z t /\ source s b t
  | OMove a => match snd s with (z, t) :: r => target (fst s, r) a t | [] => False end
  | OAddr z b base => fresh s z (TPtr base) /\ source s b (env base)
  | OIface z b base sz => fresh s z (TIface sz) /\ source s b (TPtr base)
  | ONew z base => fresh s z (TPtr base) /\ wfT (env base)
  | OMake z it n => fresh s z (TDyn it) /\ wfT (env it) /\ 0 <= n <= INT_MAX
  | OMakeMap z nd => fresh s z (TMap nd) /\ wfT (env nd)
  | OMakeStr z => fresh s z TStr
  | OMakeFiber z => fresh s z TFiber
  | OFinish b => live (fst s) b = true /\ c_obj (chunkAt (fst s) b) = OFiber
  | OFromArr z b it n => fresh s z (TDyn it) /\ source s b (TArray (env it) n) /\ Z.of_nat n <= INT_MAX
  | OToArr z b it n => fresh s z (TArray (env it) n) /\ source s b (TDyn it) /\ itemsAt (fst s) b <= Z.of_nat n
  | OCopyArr z b it => fresh s z (TDyn it) /\ wfT (env it) /\ source s b (TDyn it) /\ itemsAt (fst s) b <= INT_MAX
  | OSlice z b it i j =>
      fresh s z (TDyn it) /\ wfT (env it) /\ source s b (TDyn it) /\
      let len := itemsAt (fst s) b in
      exists e, 0 <= i <= e /\ e <= len /\ e - i <= INT_MAX /\ (j = e \/ (j = e - len /\ INT_MIN < j < 0) \/ (j = INT_MIN /\ e = len))
  | OAppend z b c it single =>
      fresh s z (TDyn it) /\ wfT (env it) /\ source s b (TDyn it) /\ source s c (if single then env it else TDyn it) /\
      itemsAt (fst s) b + (if single then 1 else itemsAt (fst s) c) <= INT_MAX
  | OInsert z b i c it => fresh s z (TDyn it) /\ wfT (env it) /\ source s b (TDyn it) /\ source s c (env it) /\ 0 <= i <= itemsAt (fst s) b /\ itemsAt (fst s) b + 1 <= INT_MAX
  | ODelete z b i it => fresh s z (TDyn it) /\ source s b (TDyn it) /\ 0 <= i < itemsAt (fst s) b
  | OEnd => snd s <> []
  end.
(** A fiber that has not returned. *)
Definition busy (m : mem) : Prop := exists b, live m b = true /\ c_obj (chunkAt m b) = OFiber /\ read m (AHeap b FIBER_ALIVE) <> WInt 0.
(** Programs of which every operation is allowed when it is executed; any number of iterations may be given to it. *)
Inductive Run : state -> list op -> state -> Prop :=
| RunNil s : Run s [] s
| RunCons s o n s1 os s2 : allowed s o -> exec env n s o = Ok s1 -> Run s1 os s2 -> Run s (o :: os) s2.
(** No chunk refers to itself, directly or through others: references lead to chunks of lower rank. *)
Definition acyclic (m : mem) : Prop := exists rank : nat -> nat, forall b c, live m b = true -> In c (objRefs m b) -> (rank c < rank b)%nat.
End Spec.
Definition start : state := (MkMem zeros [], []).

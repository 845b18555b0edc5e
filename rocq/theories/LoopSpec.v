(** What a for-in loop should do: which index or key and which item the body is given, in which order, and what it does to the memory. *)
From Coq Require Import ZArith Lia Bool List Permutation Sorted.
From Verif Require Import Base LoopModel.
Import ListNotations.
Local Open Scope Z_scope.

(** A statement that leaves the variables of the loop alone: what it does to the memory, given index or key and item. *)
Definition stmt := Z -> value -> mem -> outcome (mem * flow).

(** [p] is an address outside the loop that holds [v]. *)
Inductive holds (u : mem) : place -> value -> Prop :=
  | H_var : forall n, holds u (PVar n) (mvar u n)
  | H_item : forall b i v, nth_error (mblk u b) i = Some v -> holds u (PItem b (Z.of_nat i)) v
  | H_entry : forall m k v, entry (mmap u m) k = Some v -> holds u (PEntry m k) v.

(** The expression [e] is, or points to, the sequence of [n] items in block [b]. *)
Inductive denotes (d : loop) (u : mem) (b n : nat) : value -> Prop :=
  | D_array : lcoll d = KArr (Z.of_nat n) -> length (mblk u b) = n -> denotes d u b n (VRef (PBlock b))
  | D_dyn : forall p o, lcoll d = KDyn -> holds u p (VDyn o) -> o = Some b /\ length (mblk u b) = n \/ o = None /\ n = O -> denotes d u b n (VRef p)
  | D_str : forall o, lcoll d = KStr -> lderef d = false -> Z.of_nat n <= 2147483647 ->
      o = Some b /\ length (mblk u b) = n \/ o = None /\ n = O -> denotes d u b n (VStr o)
  | D_strptr : forall p o, lcoll d = KStr -> lderef d = true -> Z.of_nat n <= 2147483647 -> holds u p (VStr o) ->
      o = Some b /\ length (mblk u b) = n \/ o = None /\ n = O -> denotes d u b n (VRef p).

(** What the item variable is set to at index [k]: nothing if there is none, else the item or its address, as the memory is then. *)
Definition shown (d : loop) (b k : nat) (u : mem) : option value :=
  if litem d then match nth_error (mblk u b) k with Some v => Some (if lptr d then VRef (PItem b (Z.of_nat k)) else v) | None => None end
  else Some VNull.
(** Go on after the body, or stop. *)
Definition after (r : outcome (mem * flow)) (k : mem -> outcome (mem * flow)) : outcome (mem * flow) :=
  match r with
  | Ok (u, FNext) | Ok (u, FContinue) => k u
  | Ok (u, FBreak) => Ok (u, FNext)
  | r => r
  end.
(** [n] indices from [k] in ascending order. An item that is gone is an index error. *)
Fixpoint visits (d : loop) (b : nat) (s : stmt) (k n : nat) (u : mem) : outcome (mem * flow) :=
  match n with
  | O => Ok (u, FNext)
  | S n => match shown d b k u with
           | None => Err EIndex
           | Some x => after (s (Z.of_nat k) x u) (visits d b s (k + 1) n)
           end
  end.
(** The same for given pairs of index or key and item. *)
Fixpoint forEach (s : stmt) (l : list (Z * value)) (u : mem) : outcome (mem * flow) :=
  match l with [] => Ok (u, FNext) | (i, x) :: l => after (s i x u) (forEach s l) end.
Fixpoint numbered (k : nat) (l : list value) : list (Z * value) :=
  match l with [] => [] | v :: l => (Z.of_nat k, v) :: numbered (k + 1) l end.

(** The body [mb] does what [s] says and leaves the index alone. *)
Definition does (mb : body) (s : stmt) : Prop := forall i x u,
  match s i x u with
  | Ok (u', f) => exists x', mb (VInt i) x u = Ok (VInt i, x', u', f)
  | Err e => mb (VInt i) x u = Err e
  | UB => mb (VInt i) x u = UB
  end.
(** As above, but the body may assign to the key. *)
Definition doesKey (mb : body) (s : stmt) : Prop := forall i x u,
  match s i x u with
  | Ok (u', f) => exists i' x', mb (VInt i) x u = Ok (i', x', u', f)
  | Err e => mb (VInt i) x u = Err e
  | UB => mb (VInt i) x u = UB
  end.
(** Static arrays keep their length and strings do not shrink. *)
Definition keepsLen (d : loop) (b : nat) (s : stmt) : Prop :=
  lcoll d = KDyn \/ forall i x u u' f, s i x u = Ok (u', f) -> (length (mblk u b) <= length (mblk u' b))%nat.

(** [u1] is [u] with the entry [k], [v] added to map [m]. *)
Definition added (u u1 : mem) (m : nat) (k : Z) (v : value) : Prop :=
  mvar u1 = mvar u /\ mblk u1 = mblk u /\ mnext u1 = mnext u /\ (forall c, c <> m -> mmap u1 c = mmap u c)
  /\ Permutation (mmap u1 m) ((k, v) :: mmap u m)
  /\ (StronglySorted Z.lt (map fst (mmap u m)) -> StronglySorted Z.lt (map fst (mmap u1 m))).
(** What the item variable is set to for key [k] of map [m], and the memory after that: a missing entry is added. *)
Definition seen (d : loop) (m : nat) (k : Z) (u u1 : mem) (x : value) : Prop :=
  if litem d then
    exists v, x = (if lptr d then VRef (PEntry m k) else v)
      /\ (In (k, v) (mmap u m) /\ u1 = u \/ ~ In k (map fst (mmap u m)) /\ v = lzero d /\ added u u1 m k v)
  else x = VNull /\ u1 = u.
Inductive mapRun (d : loop) (m : nat) (s : stmt) : list Z -> mem -> outcome (mem * flow) -> Prop :=
  | M_nil : forall u, mapRun d m s [] u (Ok (u, FNext))
  | M_cons : forall k ks u u1 x r, seen d m k u u1 x ->
      (forall u2 f, s k x u1 = Ok (u2, f) -> f = FNext \/ f = FContinue -> mapRun d m s ks u2 r) ->
      (forall u2, s k x u1 = Ok (u2, FBreak) -> r = Ok (u2, FNext)) ->
      (forall u2, s k x u1 = Ok (u2, FReturn) -> r = Ok (u2, FReturn)) ->
      (forall e, s k x u1 = Err e -> r = Err e) -> (s k x u1 = UB -> r = UB) ->
      mapRun d m s (k :: ks) u r.
(** [u1] is [u] but for one block that was free. *)
Definition withKeys (u u1 : mem) : Prop :=
  mvar u1 = mvar u /\ mmap u1 = mmap u /\ mnext u1 = S (mnext u) /\ (forall c, c <> mnext u -> mblk u1 c = mblk u c).

(** What string operations should do: strings are byte strings without NUL; a string's buffer has a capacity and may be
    shared by several variables, which matters for += only. *)
From Coq Require Import ZArith Lia Bool List.
From Verif Require Import Base BlkModel DynModel DynSpec StrModel.
Import ListNotations.
Local Open Scope Z_scope.

Record sstr : Type := MkStr { s_bytes : list Z; s_cap : Z }.
(** The buffers created so far, and for each variable its buffer (None: null). Buffer 0 is always empty, with capacity 1. *)
Record sstate : Type := MkS { s_store : list sstr; s_var : Z -> option nat }.

Definition empty : sstr := MkStr [] 1.
Definition buf_of (st : sstate) (r : nat) : sstr := nth r (s_store st) empty.
Definition text (st : sstate) (v : Z) : list Z := match s_var st v with Some r => s_bytes (buf_of st r) | None => [] end.
Definition capacity (st : sstate) (v : Z) : Z := match s_var st v with Some r => s_cap (buf_of st r) | None => 0 end.

(** The longest string the heap can hold, and the capacity given to a new string of length n. *)
Definition MAXSTR : Z := 2147483527.
Definition new_cap (n : Z) : Z := Z.max n (Z.min 2147482623 (2 * (n + 1))).

Definition put (st : sstate) (d : Z) (b : list Z) (c : Z) : sstate :=
  MkS (s_store st ++ [MkStr b c]) (refer (s_var st) d (Some (length (s_store st)))).
(** d refers to a new heap string. *)
Definition fresh (st : sstate) (d : Z) (b : list Z) : option (sstate * out) :=
  if zlen b <=? MAXSTR then Some (put st d b (new_cap (zlen b)), RUnit) else None.
(** d refers to a new constant. *)
Definition constant (st : sstate) (d : Z) (b : list Z) : option (sstate * out) := Some (put st d b (zlen b + 1), RUnit).
Definition point (st : sstate) (d : Z) (x : option nat) : option (sstate * out) :=
  Some (MkS (s_store st) (refer (s_var st) d x), RUnit).
(** v += ...: buffer r, whose capacity suffices, is changed to b. *)
Definition overwrite (st : sstate) (v : Z) (r : nat) (b : list Z) : option (sstate * out) :=
  Some (MkS (update r (MkStr b (s_cap (buf_of st r))) (s_store st)) (refer (s_var st) v (Some r)), RUnit).

Fixpoint until_nul (l : list Z) : list Z :=
  match l with [] => [] | c :: r => if c =? 0 then [] else c :: until_nul r end.

(** Byte-wise lexicographic order. *)
Fixpoint bytes_cmp (l1 l2 : list Z) : Z :=
  match l1, l2 with
  | [], [] => 0
  | [], _ => -1
  | _, [] => 1
  | x :: r, y :: s => if x <? y then -1 else if y <? x then 1 else bytes_cmp r s
  end.

(** None is a run-time error. *)
Definition s_step (st : sstate) (p : op) : option (sstate * out) :=
  match p with
  | OLit d b => constant st d b
  | OAssign d v => point st d (s_var st v)
  | OConcat d v w => fresh st d (text st v ++ text st w)
  | OConstConcat d v w => constant st d (text st v ++ text st w)
  | OAppend v w =>
      let r := match s_var st v with Some r => r | None => O end in
      let b := text st v ++ text st w in
      if zlen b <? s_cap (buf_of st r) then overwrite st v r b else fresh st v b
  | OSlice d v i e =>
      let len := zlen (text st v) in
      let e := match e with None => len | Some e => if e <? 0 then e + len else e end in
      if (0 <=? i) && (i <=? e) && (e <=? len) then fresh st d (sublist i e (text st v)) else None
  | OCopy d v => match s_var st v with None => point st d None | Some _ => fresh st d (text st v) end
  | OChar d c => if c mod 256 =? 0 then point st d (Some O) else fresh st d [c mod 256]
  | OFromBytes d None => point st d (Some O)
  | OFromBytes d (Some b) => if zlen b <=? MAXSTR then fresh st d (until_nul b) else None
  | OToBytes v => if zlen (text st v) <=? MAXSTR then Some (st, RBytes (text st v)) else None
  | OMakeStr d None => point st d None
  | OMakeStr d (Some b) => fresh st d b
  | OLen v => Some (st, RInt (zlen (text st v)))
  | OCap v => Some (st, RInt (capacity st v))
  | OIndex v i =>
      if (0 <=? i) && (i <? zlen (text st v)) then Some (st, RInt (nth (Z.to_nat i) (text st v) 0)) else None
  | OCompare v w => Some (st, RInt (bytes_cmp (text st v) (text st w)))
  | OHost v => Some (st, match s_var st v with Some _ => RBytes (text st v) | None => RNull end)
  end.

Fixpoint s_run (st : sstate) (ops : list op) : option (sstate * list out) :=
  match ops with
  | [] => Some (st, [])
  | o :: r =>
      match s_step st o with
      | Some (st, x) => match s_run st r with Some (st, xs) => Some (st, x :: xs) | None => None end
      | None => None
      end
  end.
Definition s_init : sstate := MkS [empty] (fun _ => None).

(** Literals and host strings contain no NUL and are shorter than INT_MAX; arrays contain bytes. *)
Definition ch (c : Z) : Prop := 0 < c < 256.
Definition byte (c : Z) : Prop := 0 <= c < 256.
Definition wf_op (p : op) : Prop :=
  match p with
  | OLit _ b | OMakeStr _ (Some b) => Forall ch b /\ zlen b < INT_MAX
  | OFromBytes _ (Some b) => Forall byte b
  | _ => True
  end.
(** The cases in which the code departs from the specification: the sum of the lengths (for +=, plus one) overflows a 32-bit
    int, and a slice whose end is written as -2^31. Constant operands are not null. *)
Definition plain_op (st : sstate) (p : op) : Prop :=
  match p with
  | OConcat _ v w => zlen (text st v) + zlen (text st w) <= INT_MAX
  | OAppend v w => zlen (text st v) + zlen (text st w) < INT_MAX
  | OConstConcat _ v w => s_var st v <> None /\ s_var st w <> None /\ zlen (text st v) + zlen (text st w) < INT_MAX
  | OSlice _ _ _ (Some e) => e <> INT_MIN
  | _ => True
  end.
Fixpoint plain (st : sstate) (ops : list op) : Prop :=
  match ops with
  | [] => True
  | o :: r => wf_op o /\ plain_op st o /\ match s_step st o with Some (st', _) => plain st' r | None => True end
  end.
Definition reachable (emptyStr : Z) (st : state) : Prop :=
  exists ops xs, plain s_init ops /\ run emptyStr (init emptyStr) ops = Ok (st, xs).

(** What a program sees of a string: len() and the characters. *)
Definition observe (st : state) (v : Z) : outcome (list Z) :=
  let* n := doLenStr (st_mem st) (st_var st v) in
  if (n =? 0) || valid (st_mem st) (st_var st v) n then Ok (read (Z.to_nat n) (om_mem (st_mem st)) (st_var st v)) else UB.
(** v is a new string b that shares its buffer with no other variable, and no other variable has changed. *)
Definition made_new (st st' : state) (d : Z) (b : list Z) : Prop :=
  observe st' d = Ok b /\
  forall w, w <> d -> st_var st' w = st_var st w /\ st_var st' w <> st_var st' d /\ observe st' w = observe st w.
(** v has become b in its old buffer; exactly the variables that shared the buffer have changed with it. *)
Definition changed_in_place (st st' : state) (v : Z) (b : list Z) : Prop :=
  observe st' v = Ok b /\ st_var st' v = st_var st v /\
  forall w, w <> v -> st_var st' w = st_var st w /\
    observe st' w = if st_var st w =? st_var st v then Ok b else observe st w.

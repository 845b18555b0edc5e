(** What a program can say about heap blocks: every block ever allocated, in order of allocation, with its reference count. *)
From Coq Require Import ZArith Bool List.
From Verif Require Import Base BlkModel HeapModel.
Import ListNotations.
Local Open Scope Z_scope.

Record block : Type := MkB { b_addr : Z; b_size : Z; b_refs : Z; b_onFree : Z; b_stack : bool }.
Definition alive (b : block) : Prop := 0 < b_refs b.
Definition aliveb (b : block) : bool := 0 <? b_refs b.
(** Pointers into the block; one past the end is allowed. *)
Definition within (p : Z) (b : block) : Prop := b_addr b <= p <= b_addr b + b_size b.
Definition withinb (p : Z) (b : block) : bool := (b_addr b <=? p) && (p <=? b_addr b + b_size b).
(** The block p belongs to. *)
Fixpoint owner (s : list block) (p : Z) : option nat :=
  match s with
  | [] => None
  | b :: r => if aliveb b && withinb p b then Some O else option_map S (owner r p)
  end.
Definition add_ref (b : block) (d : Z) : block := MkB (b_addr b) (b_size b) (b_refs b + d) (b_onFree b) (b_stack b).
Fixpoint count_ref (s : list block) (i : nat) (d : Z) : list block :=
  match s, i with
  | b :: r, O => add_ref b d :: r
  | b :: r, S i => b :: count_ref r i d
  | [], _ => []
  end.
Definition a_step (s : list block) (o : op) (x : out) : list block :=
  match o, x with
  | OAlloc size f k, RPtr p => s ++ [MkB p size 1 f k]
  | ORef p d, _ => match owner s p with Some i => count_ref s i d | None => s end
  | _, _ => s
  end.

(** sizeof(HeapPage) (src/umka_vm.h:143-151): the page header precedes the data. *)
Definition HEADER : Z := 48.
(** p does not point into memory obtained by the heap: a global variable, null, ... *)
Definition foreign (h : heap) (p : Z) : Prop := forall a n, In (a, n) (h_blocks h) -> ~ (a - HEADER <= p < a + n).
(** A program only has pointers into live blocks or outside the heap, and writes only there. *)
Definition legal (h : heap) (s : list block) (o : op) : Prop :=
  match o with
  | ORef p d => (d = 1 \/ d = -1) /\ (owner s p <> None \/ foreign h p)
  | OWeaken p => 0 <= p < two63 /\ (owner s p <> None \/ foreign h p)
  | OWrite a _ => owner s a <> None \/ foreign h a
  | _ => True
  end.
Definition calls_of (x : out) : list (Z * Z) := match x with RCalls l => l | _ => [] end.

(** What is assumed of malloc: the new page lies apart from all pages in use, below 2^63. *)
Definition malloc_ok (malloc : list (Z * Z) -> Z -> option Z) : Prop :=
  forall l n a, malloc l n = Some a -> HEADER < a /\ a + n < two63 /\
    forall b m, In (b, m) l -> a + n <= b - HEADER \/ b + m <= a - HEADER.

(** Executions: heap, blocks, callbacks made so far. *)
Inductive later (malloc : list (Z * Z) -> Z -> option Z) (h : heap) (s : list block) : heap -> list block -> list (Z * Z) -> Prop :=
| later_here : later malloc h s h s []
| later_step h1 s1 cs o h2 x :
    later malloc h s h1 s1 cs -> legal h1 s1 o -> step malloc h1 o = Ok (h2, x) ->
    later malloc h s h2 (a_step s1 o x) (cs ++ calls_of x).
Definition history malloc (h : heap) (s : list block) (cs : list (Z * Z)) : Prop := later malloc init [] h s cs.

(** The pages reachable from a page through their next links. *)
Inductive chain (h : heap) : Z -> Z -> Prop :=
| chain_here a : a <> 0 -> chain h a a
| chain_next a b : a <> 0 -> chain h (pg_next (h_page h a)) b -> chain h a b.
Definition in_use (h : heap) (a : Z) : Prop := chain h (h_first h) a.
Definition recycled (h : heap) (a : Z) : Prop := chain h (h_recycled h) a.
(** A block lies in a page. *)
Definition in_page (h : heap) (a : Z) (b : block) : Prop := a <= b_addr b /\ b_addr b + b_size b < pg_end (h_page h a).

Fixpoint held (l : list (Z * Z)) : Z := match l with [] => 0 | (_, n) :: r => n + held r end.
Fixpoint calls_to (f : Z) (l : list (Z * Z)) : Z :=
  match l with [] => 0 | (g, _) :: r => (if g =? f then 1 else 0) + calls_to f r end.

(** Executions all of whose operations satisfy P. *)
Inductive only (malloc : list (Z * Z) -> Z -> option Z) (P : op -> Prop) : heap -> list block -> Prop :=
| only_init : only malloc P init []
| only_step h s o h' x : only malloc P h s -> P o -> legal h s o -> step malloc h o = Ok (h', x) -> only malloc P h' (a_step s o x).

(** Two blocks (with the byte after each) do not overlap. *)
Definition apart (b1 b2 : block) : Prop := b_addr b1 + b_size b1 < b_addr b2 \/ b_addr b2 + b_size b2 < b_addr b1.
Fixpoint total_refs (s : list block) : Z := match s with [] => 0 | b :: r => b_refs b + total_refs r end.
(** The number of dead blocks whose callback is f. *)
Fixpoint dead_with (f : Z) (s : list block) : Z := match s with [] => 0 | b :: r => (if negb (aliveb b) && (b_onFree b =? f) then 1 else 0) + dead_with f r end.
(** Blocks whose callback is still to be called. *)
Definition wants_call (b : block) : bool := aliveb b && negb (b_onFree b =? 0).
(** Operations allocating only blocks of one size class. *)
Definition one_size (c : Z) (o : op) : Prop := match o with OAlloc size _ _ => chunkSizeFor size = c | _ => True end.

(** A malloc for examples: each page after all others. *)
Definition bump (l : list (Z * Z)) (n : Z) : option Z :=
  let a := fold_right (fun b top => Z.max top (fst b + snd b)) 1000 l + HEADER in
  if a + n <? two63 then Some a else None.

(** Running operations with the checks of [legal], for examples. *)
Definition foreignb (h : heap) (p : Z) : bool :=
  forallb (fun b => negb ((fst b - HEADER <=? p) && (p <? fst b + snd b))) (h_blocks h).
Definition reachb (h : heap) (s : list block) (p : Z) : bool :=
  match owner s p with Some _ => true | None => foreignb h p end.
Definition legalb (h : heap) (s : list block) (o : op) : bool :=
  match o with
  | ORef p d => ((d =? 1) || (d =? -1)) && reachb h s p
  | OWeaken p => (0 <=? p) && (p <? two63) && reachb h s p
  | OWrite a _ => reachb h s a
  | _ => true
  end.
Fixpoint play malloc (h : heap) (s : list block) (cs : list (Z * Z)) (ops : list op) : option (heap * list block * list (Z * Z)) :=
  match ops with
  | [] => Some (h, s, cs)
  | o :: r => if legalb h s o then match step malloc h o with Ok (h', x) => play malloc h' (a_step s o x) (cs ++ calls_of x) r | _ => None end else None
  end.

(** Specification of the leak report, in terms of the blocks a program has allocated. *)
From Coq Require Import ZArith Bool List.
From Verif Require Import Base HeapModel HeapSpec LeakModel.
Import ListNotations.
Local Open Scope Z_scope.

(** Executions in which each allocation is made for some type at some instruction: the heap, the blocks, the callbacks, the
    chunk headers, and what each block was allocated for. *)
Inductive traced (malloc : list (Z * Z) -> Z -> option Z)
  : heap -> list block -> list (Z * Z) -> (Z -> site) -> list site -> Prop :=
| tr_init st : traced malloc init [] [] st []
| tr_step h s cs st w o h' x z :
    traced malloc h s cs st w -> legal h s o -> step malloc h o = Ok (h', x) ->
    traced malloc h' (a_step s o x) (cs ++ calls_of x) (newSite st o x z)
      (match o, x with OAlloc _ _ _, RPtr _ => w ++ [z] | _, _ => w end).

(** Running operations, for examples. *)
Fixpoint playSites malloc (h : heap) (s : list block) (cs : list (Z * Z)) (st : Z -> site) (w : list site) (ops : list (op * site))
  : option (heap * list block * list (Z * Z) * (Z -> site) * list site) :=
  match ops with
  | [] => Some (h, s, cs, st, w)
  | (o, z) :: r =>
      if legalb h s o then
        match step malloc h o with
        | Ok (h', x) => playSites malloc h' (a_step s o x) (cs ++ calls_of x) (newSite st o x z)
                          (match o, x with OAlloc _ _ _, RPtr _ => w ++ [z] | _, _ => w end) r
        | _ => None
        end
      else None
  end.

Definition inPageb (h : heap) (a : Z) (b : block) : bool := (a <=? b_addr b) && (b_addr b + b_size b <? pg_end (h_page h a)).

Section Spec.
Variable debugAt : Z -> option place.

(** A block allocated for type [t] at a place [d] is alive. *)
Definition leaked (s : list block) (w : list site) (P : block -> Prop) (l : loc) : Prop :=
  exists k b ip, nth_error s k = Some b /\ alive b /\ P b /\ nth_error w k = Some (fst l, ip) /\ debugAt ip = Some (snd l).

(** The report about a page: its address, the number of references, the places. *)
Record part := MkPart { part_page : Z; part_refs : Z; part_locs : list loc }.
Definition lines (level : Z) (p : part) : list printed :=
  LPage (part_page p) (part_refs p) :: (if 1 <? level then map LLoc (part_locs p) else []).

Definition about (h : heap) (s : list block) (w : list site) (p : part) : Prop :=
  part_refs p = total_refs (filter (inPageb h (part_page p)) s) /\ 0 < part_refs p /\
  NoDup (part_locs p) /\
  forall l, In l (part_locs p) <-> leaked s w (in_page h (part_page p)) l.

(** The whole report: every live block is in the page of exactly one part. *)
Definition report (h : heap) (s : list block) (w : list site) (ps : list part) : Prop :=
  NoDup (map part_page ps) /\ Forall (about h s w) ps /\
  forall b, In b s -> alive b -> exists p, In p ps /\ in_page h (part_page p) b /\
    forall q, In q ps -> in_page h (part_page q) b -> q = p.

(** The references printed. *)
Fixpoint pageRefs (r : list printed) : Z :=
  match r with [] => 0 | LPage _ n :: r => n + pageRefs r | LLoc _ :: r => pageRefs r end.

(** Every allocation was made at an instruction of the program. *)
Definition known (w : list site) : Prop := forall t ip, In (t, ip) w -> debugAt ip <> None.
End Spec.

(** C75: the leak report. *)
From Coq Require Import ZArith Lia Bool List.
From Verif Require Import Base HeapModel HeapSpec HeapFree LeakModel LeakSpec LeakProofs.
Import ListNotations.
Local Open Scope Z_scope.

(** Two blocks are allocated for type 7 at instruction 3 and one for type 8 at instruction 4, which is released. The chunks
    of the first two are of different sizes, so there are two pages. *)
Definition exBlocks : list block := [MkB 1088 16 0 0 false; MkB 1152 16 1 0 false; MkB 1049712 100 1 0 false].
Definition exWhere : list site := [(8, 4); (7, 3); (7, 3)].
Definition exDebug (ip : Z) : option place := if (0 <=? ip) && (ip <? 10) then Some (1, 2, ip * 10) else None.
Example C75_example_known : known exDebug exWhere.
Proof. intros t ip [E|[E|[E|[]]]]; injection E as _ <-; discriminate. Qed.
Example C75_example : exists h st, traced bump h exBlocks [] st exWhere /\ leakReport st exDebug h 2 true =
  Ok [LPage 1049672 1; LLoc (7, (1, 2, 30)); LPage 1048 1; LLoc (7, (1, 2, 30))].
Proof.
  apply (play_report bump exDebug [(OAlloc 16 0 false, (8, 4)); (OAlloc 16 0 false, (7, 3)); (OAlloc 100 0 false, (7, 3));
    (ORef 1088 (-1), (0, 0))]). vm_compute. reflexivity.
Qed.

(** The report is made of one part for each page with live blocks. *)
Theorem C75_report : forall malloc, malloc_ok malloc -> forall debugAt h s cs st w,
  traced malloc h s cs st w -> known debugAt w -> forall level normal,
  exists ps, report debugAt h s w ps /\
    leakReport st debugAt h level normal = Ok (if (0 <? level) && normal then concat (map (lines level) ps) else []).
Proof. exact report_ok. Qed.
Print Assumptions C75_report.

(** Nothing is reported exactly if nothing is alive. *)
Theorem C75_silent : forall malloc, malloc_ok malloc -> forall debugAt h s cs st w,
  traced malloc h s cs st w -> known debugAt w -> forall level, 0 < level ->
  (leakReport st debugAt h level true = Ok [] <-> forall b, In b s -> ~ alive b).
Proof. exact silent_ok. Qed.
Print Assumptions C75_silent.

(** Exactly the places are named where a live block was allocated. *)
Theorem C75_places : forall malloc, malloc_ok malloc -> forall debugAt h s cs st w,
  traced malloc h s cs st w -> known debugAt w -> forall level, 1 < level ->
  exists r, leakReport st debugAt h level true = Ok r /\
    forall l, In (LLoc l) r <-> leaked debugAt s w (fun _ => True) l.
Proof. exact places_ok. Qed.
Print Assumptions C75_places.

(** The numbers of references add up to those of all blocks. *)
Theorem C75_references : forall malloc, malloc_ok malloc -> forall debugAt h s cs st w,
  traced malloc h s cs st w -> known debugAt w -> forall level, 0 < level ->
  exists r, leakReport st debugAt h level true = Ok r /\ pageRefs r = total_refs s.
Proof. exact refs_ok. Qed.
Print Assumptions C75_references.

(** At the end of a program the stack of the main fiber is no leak: the report is that of all other references. *)
Theorem C75_at_the_end : forall malloc, malloc_ok malloc -> forall debugAt h s cs st w stack k,
  traced malloc h s cs st w -> known debugAt w -> owner s stack = Some k -> total_refs s < INT_MAX ->
  exists h' cs', traced malloc h' (count_ref s k (-1)) cs' st w /\
    forall level normal, vmFree st debugAt h stack level normal = leakReport st debugAt h' level normal.
Proof. exact end_ok. Qed.
Print Assumptions C75_at_the_end.

(** A place may be named once for each page, so more than once. *)
Theorem C75_once_refuted : ~ forall malloc, malloc_ok malloc -> forall debugAt h s cs st w r,
  traced malloc h s cs st w -> known debugAt w -> leakReport st debugAt h 2 true = Ok r -> NoDup r.
Proof.
  intros H. destruct C75_example as (h & st & T & R).
  pose proof (H bump bump_ok exDebug h exBlocks [] st exWhere _ T C75_example_known R) as N.
  apply NoDup_cons_iff in N as [_ N]. apply NoDup_cons_iff in N as [N _]. apply N. right. left. reflexivity.
Qed.
Print Assumptions C75_once_refuted.

(** The heap (C17-C21). Only theorems, each with an example. All quantify over every malloc that hands out pages apart from
    those in use ([malloc_ok]) and over every execution ([history]): heap, blocks allocated so far, callbacks made so far. *)
From Coq Require Import ZArith Bool List Permutation.
From Verif Require Import Base BlkModel HeapModel HeapSpec HeapHist HeapWeak HeapFree.
Import ListNotations.
Local Open Scope Z_scope.

(** C17. Live blocks never overlap. *)
Theorem C17_blocks_disjoint :
  forall malloc, malloc_ok malloc -> forall h s cs i j b1 b2, history malloc h s cs ->
  nth_error s i = Some b1 -> nth_error s j = Some b2 -> i <> j -> alive b1 -> alive b2 -> apart b1 b2.
Proof. exact disjoint_thm. Qed.
Print Assumptions C17_blocks_disjoint.

(** C17. Live blocks lie in memory obtained from malloc and not freed. *)
Theorem C17_blocks_in_memory :
  forall malloc, malloc_ok malloc -> forall h s cs k b, history malloc h s cs -> nth_error s k = Some b -> alive b ->
  0 <= b_size b /\ exists a n, In (a, n) (h_blocks h) /\ a <= b_addr b /\ b_addr b + b_size b < a + n /\ a + n < two63.
Proof. exact inside_thm. Qed.
Print Assumptions C17_blocks_in_memory.

(** C17. A new block is zero-filled (with the byte after it) and apart from every live block; the contents of live blocks and
    of all memory outside the heap stay the same. *)
Theorem C17_allocation :
  forall malloc, malloc_ok malloc -> forall h s cs size f st h' p, history malloc h s cs ->
  step malloc h (OAlloc size f st) = Ok (h', RPtr p) ->
  (forall x, p <= x <= p + size -> h_mem h' x = 0) /\
  (forall b, In b s -> alive b -> apart b (MkB p size 1 f st)) /\
  (forall b x, In b s -> alive b -> within x b -> h_mem h' x = h_mem h x) /\
  (forall x, foreign h' x -> h_mem h' x = h_mem h x).
Proof. exact alloc_thm. Qed.
Print Assumptions C17_allocation.

(** C17. Allocation succeeds unless malloc refuses or the size is out of range, as long as fewer than 2^31 - 2 blocks were
    ever allocated and fewer than 2^31 - 1 references exist; in particular nothing is undefined. *)
Theorem C17_allocation_succeeds :
  forall malloc, malloc_ok malloc -> forall h s cs size f st, history malloc h s cs ->
  1 + Z.of_nat (length s) < INT_MAX -> total_refs s < INT_MAX ->
  (exists h' p, step malloc h (OAlloc size f st) = Ok (h', RPtr p)) \/
  (step malloc h (OAlloc size f st) = Err EOutOfMemory /\
   (size < 0 \/ INT_MAX < chunkSizeFor size \/ exists l n, incl l (h_blocks h) /\ n <= INT_MAX /\ malloc l n = None)).
Proof. exact alloc_progress. Qed.
Print Assumptions C17_allocation_succeeds.

(** C17. No other operation changes the contents of memory. *)
Theorem C17_contents_kept :
  forall malloc, malloc_ok malloc -> forall h s cs o h' x, history malloc h s cs -> legal h s o -> step malloc h o = Ok (h', x) ->
  (forall size f st, o <> OAlloc size f st) -> (forall a v, o <> OWrite a v) -> h_mem h' = h_mem h.
Proof. exact mem_frame. Qed.
Print Assumptions C17_contents_kept.

(** C17. A pointer anywhere into a live block is resolved to that block, with its reference count, size and callback. *)
Theorem C17_pointers_resolved :
  forall malloc, malloc_ok malloc -> forall h s cs p k b, history malloc h s cs -> owner s p = Some k -> nth_error s k = Some b ->
  exists a, a <> 0 /\ pageFind h p = Ok (set_last h a, a) /\ pageGetChunk h a p = b_addr b - 40 /\
    h_hdr h (pageGetChunk h a p) = Some (MkHdr (b_refs b) (b_size b) (b_onFree b) (b_stack b)).
Proof. exact resolved_thm. Qed.
Print Assumptions C17_pointers_resolved.

Example C17_case :
  malloc_ok bump /\
  exists h, history bump h [MkB 1088 16 2 0 false; MkB 1049712 3000000 1 5 false; MkB 1152 16 0 0 false; MkB 1216 20 1 0 false] [].
Proof.
  split; [exact bump_ok|].
  apply (play_history bump [OAlloc 16 0 false; OAlloc 3000000 5 false; OAlloc 16 0 false; ORef 1104 1; ORef 1153 (-1); OAlloc 20 0 false]). vm_compute. reflexivity.
Qed.

(** C18. A reference count change through any pointer into a live block succeeds and changes the count of that block alone;
    the block dies, and its callback runs, exactly when the count reaches zero. *)
Theorem C18_counting :
  forall malloc, malloc_ok malloc -> forall h s cs p d k, history malloc h s cs -> d = 1 \/ d = -1 -> owner s p = Some k ->
  total_refs s < INT_MAX ->
  exists h' b, nth_error s k = Some b /\
    step malloc h (ORef p d) = Ok (h', RCalls (if negb (b_onFree b =? 0) && (b_refs b =? 1) && (d =? -1) then [(b_onFree b, p)] else [])) /\
    history malloc h' (count_ref s k d) (cs ++ (if negb (b_onFree b =? 0) && (b_refs b =? 1) && (d =? -1) then [(b_onFree b, p)] else [])).
Proof. exact ref_succeeds. Qed.
Print Assumptions C18_counting.

(** C18. A page stays in use exactly as long as some block in it is alive. *)
Theorem C18_page_released :
  forall malloc, malloc_ok malloc -> forall h s cs a n, history malloc h s cs -> In (a, n) (h_blocks h) ->
  (in_use h a <-> exists b, In b s /\ alive b /\ in_page h a b).
Proof. exact page_used. Qed.
Print Assumptions C18_page_released.

(** C18. A page is made available for reuse only when no temporary value on any stack points into it. *)
Theorem C18_temporaries :
  forall malloc, malloc_ok malloc -> forall h s cs o h' x, history malloc h s cs -> legal h s o -> step malloc h o = Ok (h', x) ->
  forall a, recycled h' a -> recycled h a \/ forall t, In t (h_temps h) -> ~ (a <= t < pg_end (h_page h a)).
Proof. exact temps_thm. Qed.
Print Assumptions C18_temporaries.

(** C18, partial. A count change through a pointer to a dead block is reported as long as another block of the same page has
    stayed alive. Missing: the page may have been released and reused, see C18_stale_pointer_refuted. *)
Theorem C18_dangling_partial :
  forall malloc, malloc_ok malloc -> forall h1 s1 cs1 h2 s2 cs2 a i j b c b2 c2 p, history malloc h1 s1 cs1 -> later malloc h1 s1 h2 s2 cs2 ->
  nth_error s1 i = Some b -> alive b -> in_page h1 a b -> nth_error s1 j = Some c -> alive c -> in_page h1 a c ->
  (exists n, In (a, n) (h_blocks h1)) ->
  nth_error s2 i = Some b2 -> ~ alive b2 -> nth_error s2 j = Some c2 -> alive c2 -> within p b ->
  forall d, step malloc h2 (ORef p d) = Err EDangling.
Proof. exact dangling_thm. Qed.
Print Assumptions C18_dangling_partial.

Example C18_case :
  fmap snd (run bump init [OAlloc 16 9 false; OAlloc 16 0 false; ORef 1090 1; ORef 1088 (-1); ORef 1104 (-1); ORef 1160 1]) =
    Ok [RPtr 1088; RPtr 1152; RCalls []; RCalls []; RCalls [(9, 1104)]; RCalls []] /\
  fmap snd (run bump init [OAlloc 16 0 false; OAlloc 16 0 false; ORef 1088 (-1); ORef 1090 1]) = Err EDangling.
Proof. split; vm_compute; reflexivity. Qed.

(** C18, refuted once the memory has been reused: the count of the new block changes without any error. *)
Theorem C18_stale_pointer_refuted :
  exists h h' b0 b1 p, history bump h [b0; b1] [] /\ ~ alive b0 /\ within p b0 /\ b_refs b1 = 1 /\
    step bump h (ORef p 1) = Ok (h', RCalls []) /\ history bump h' [b0; add_ref b1 1] [].
Proof. exact stale_case. Qed.
Print Assumptions C18_stale_pointer_refuted.

(** C19. A weak pointer taken from a live block and strengthened at any later time gives the original address if the block is
    still alive and null otherwise. *)
Theorem C19_weak_pointers :
  forall malloc, malloc_ok malloc -> forall h s cs p k b h1 w h2 s2 cs2, history malloc h s cs -> owner s p = Some k ->
  nth_error s k = Some b -> b_stack b = false -> step malloc h (OWeaken p) = Ok (h1, RInt w) -> later malloc h1 s h2 s2 cs2 ->
  exists b2, nth_error s2 k = Some b2 /\ step malloc h2 (OStrengthen w) = Ok (h2, RPtr (if aliveb b2 then p else 0)).
Proof. exact weak_thm. Qed.
Print Assumptions C19_weak_pointers.

(** C19. Null and pointers outside the heap survive unchanged. *)
Theorem C19_outside_the_heap :
  forall malloc, malloc_ok malloc -> forall h s cs p, history malloc h s cs -> foreign h p -> 0 <= p < two63 ->
  step malloc h (OWeaken p) = Ok (h, RInt p) /\ forall h2, step malloc h2 (OStrengthen p) = Ok (h2, RPtr p).
Proof. exact weak_foreign. Qed.
Print Assumptions C19_outside_the_heap.

(** C19. No weak pointer can be taken to a fiber stack. *)
Theorem C19_stacks :
  forall malloc, malloc_ok malloc -> forall h s cs p k b, history malloc h s cs -> owner s p = Some k -> nth_error s k = Some b ->
  b_stack b = true -> step malloc h (OWeaken p) = Err EOther.
Proof. exact weak_stack. Qed.
Print Assumptions C19_stacks.

Example C19_case :
  (* weak pointers to 1090 and 1160; the first block dies, the second dies, the page is reused at the same addresses *)
  fmap snd (run bump init [OAlloc 16 0 false; OAlloc 16 0 false; OWeaken 1090; OWeaken 1160; OStrengthen 9223372041149743146;
    ORef 1088 (-1); OStrengthen 9223372041149743146; OStrengthen 9223372041149743216; ORef 1152 (-1); OAlloc 16 0 false; OAlloc 16 0 false;
    OStrengthen 9223372041149743146; OStrengthen 9223372041149743216; OWeaken 77; OStrengthen 77]) =
  Ok [RPtr 1088; RPtr 1152; RInt 9223372041149743146; RInt 9223372041149743216; RPtr 1090; RCalls []; RPtr 0; RPtr 1160; RCalls [];
      RPtr 1088; RPtr 1152; RPtr 0; RPtr 0; RInt 77; RPtr 77].
Proof. vm_compute. reflexivity. Qed.

(** C20. The callbacks made so far are exactly one per dead block. *)
Theorem C20_once_per_dead_block :
  forall malloc, malloc_ok malloc -> forall h s cs f, history malloc h s cs -> f <> 0 -> calls_to f cs = dead_with f s.
Proof. exact calls_thm. Qed.
Print Assumptions C20_once_per_dead_block.

(** C20. A count change makes a call exactly when it removes the last reference, to the callback of that block. *)
Theorem C20_at_last_release :
  forall malloc, malloc_ok malloc -> forall h s cs p d k b h' x, history malloc h s cs -> d = 1 \/ d = -1 -> owner s p = Some k ->
  nth_error s k = Some b -> step malloc h (ORef p d) = Ok (h', x) ->
  x = RCalls (if negb (b_onFree b =? 0) && (b_refs b =? 1) && (d =? -1) then [(b_onFree b, p)] else []).
Proof. exact call_thm. Qed.
Print Assumptions C20_at_last_release.

(** C20. At the end of the program exactly the blocks still alive get their call, with the address of the block. *)
Theorem C20_at_the_end :
  forall malloc, malloc_ok malloc -> forall h s cs, history malloc h s cs ->
  exists l, pageFree h = Ok l /\ Permutation l (map (fun b => (b_onFree b, b_addr b)) (filter wants_call s)).
Proof. exact free_thm. Qed.
Print Assumptions C20_at_the_end.

Example C20_case :
  exists h, history bump h [MkB 1088 16 0 9 false; MkB 1152 16 2 9 false; MkB 1216 16 1 0 false] [(9, 1088)] /\ pageFree h = Ok [(9, 1152)].
Proof.
  destruct (play_history bump [OAlloc 16 9 false; OAlloc 16 9 false; OAlloc 16 0 false; ORef 1088 (-1); ORef 1152 1]
    [MkB 1088 16 0 9 false; MkB 1152 16 2 9 false; MkB 1216 16 1 0 false] [(9, 1088)]) as (h & H); [vm_compute; reflexivity|].
  exists h. split; [exact H|]. destruct (C20_at_the_end bump bump_ok _ _ _ H) as (l & -> & P). cbn in P.
  apply Permutation_length_1_inv in P || apply Permutation_sym, Permutation_length_1_inv in P. rewrite P. reflexivity.
Qed.

(** C20, refuted: the callback may get a pointer into the middle of the block, not the block. *)
Theorem C20_argument_refuted :
  exists h b p, history bump h [b] [(b_onFree b, p)] /\ p <> b_addr b.
Proof. exact interior_case. Qed.
Print Assumptions C20_argument_refuted.

(** C21, partial. memusage() is never less than the memory obtained from the system and not returned. Missing: equality,
    see C21_drift_refuted. *)
Theorem C21_at_least_partial :
  forall malloc, malloc_ok malloc -> forall h s cs, history malloc h s cs ->
  exists u, step malloc h OMemUsage = Ok (h, RInt u) /\ held (h_blocks h) <= u.
Proof. exact held_thm. Qed.
Print Assumptions C21_at_least_partial.

(** C21, partial. It is exact as long as all blocks allocated are of one size class. *)
Theorem C21_exact_partial :
  forall malloc, malloc_ok malloc -> forall c h s, only malloc (one_size c) h s ->
  step malloc h OMemUsage = Ok (h, RInt (held (h_blocks h))).
Proof. exact exact_thm. Qed.
Print Assumptions C21_exact_partial.

Example C21_case :
  fmap snd (run bump init [OAlloc 16 0 false; OMemUsage; OAlloc 20 0 false; OMemUsage; ORef 1088 (-1); ORef 1152 (-1); OMemUsage]) =
    Ok [RPtr 1088; RInt 1048576; RPtr 1152; RInt 1048576; RCalls []; RCalls []; RInt 1048576] /\
  chunkSizeFor 16 = 64 /\ chunkSizeFor 20 = 64.
Proof. vm_compute. auto. Qed.

(** C21, refuted: 951488 bytes too many after a large page has been reused for small blocks and then freed. *)
Theorem C21_drift_refuted :
  exists h s cs, history bump h s cs /\ (h_total h, held (h_blocks h)) = (2951552, 2000064).
Proof. exact drift_case. Qed.
Print Assumptions C21_drift_refuted.

(** The heap: pages of equally sized chunks, reference counts, recycled and blacklisted pages, weak pointers.

    Pages are identified by the address of their data (HeapPage.data); 0 stands for NULL. Chunk headers are kept apart from
    the bytes of the heap. Simplifications: chunk->type and chunk->ip are not kept; a callback (onFree) does not itself use
    the heap, it is recorded; the frame reference counts updated by chunkRefCnt (src/umka_vm.c:763-764) are modelled in
    CallModel.v. *)
From Coq Require Import ZArith Lia Bool List.
From Verif Require Import Base MemModel BlkModel CmpModel.
Import ListNotations.
Local Open Scope Z_scope.

(** src/umka_vm.h:143-151, HeapPage (without data). *)
Record page : Type := MkPage {
  pg_id : Z; pg_ref : Z; pg_num : Z; pg_occ : Z; pg_onf : Z; pg_chunk : Z; pg_prev : Z; pg_next : Z; pg_end : Z
}.
(** src/umka_vm.h:167-176, HeapChunk (without data). [hd_onFree] is the callback, 0 for NULL. *)
Record hdr : Type := MkHdr { hd_ref : Z; hd_size : Z; hd_onFree : Z; hd_stack : bool }.
(** src/umka_vm.h:154-164, HeapPages, with the memory of the pages: [h_blocks] lists the pages obtained from malloc and not
    yet freed, with the sizes of their data; [h_hdr a] is None while the header at a has never been written. *)
Record heap : Type := MkHeap {
  h_page : Z -> page; h_hdr : Z -> option hdr; h_mem : mem; h_blocks : list (Z * Z);
  h_first : Z; h_recycled : Z; h_black : Z; h_last : Z; h_low : Z; h_high : Z;
  h_free : Z; h_total : Z; h_blsize : Z;
  h_temps : list Z   (* the slots above the local variables in the frames of all running fibers *)
}.

Definition set_page (h : heap) (a : Z) (p : page) : heap :=
  MkHeap (fun x => if x =? a then p else h_page h x) (h_hdr h) (h_mem h) (h_blocks h) (h_first h) (h_recycled h) (h_black h)
         (h_last h) (h_low h) (h_high h) (h_free h) (h_total h) (h_blsize h) (h_temps h).
Definition set_hdr (h : heap) (a : Z) (x : hdr) : heap :=
  MkHeap (h_page h) (fun y => if y =? a then Some x else h_hdr h y) (h_mem h) (h_blocks h) (h_first h) (h_recycled h) (h_black h)
         (h_last h) (h_low h) (h_high h) (h_free h) (h_total h) (h_blsize h) (h_temps h).
Definition set_bytes (h : heap) (m : mem) : heap :=
  MkHeap (h_page h) (h_hdr h) m (h_blocks h) (h_first h) (h_recycled h) (h_black h)
         (h_last h) (h_low h) (h_high h) (h_free h) (h_total h) (h_blsize h) (h_temps h).
Definition set_blocks (h : heap) (b : list (Z * Z)) (total : Z) : heap :=
  MkHeap (h_page h) (h_hdr h) (h_mem h) b (h_first h) (h_recycled h) (h_black h)
         (h_last h) (h_low h) (h_high h) (h_free h) total (h_blsize h) (h_temps h).
Definition set_first (h : heap) (a : Z) : heap :=
  MkHeap (h_page h) (h_hdr h) (h_mem h) (h_blocks h) a (h_recycled h) (h_black h)
         (h_last h) (h_low h) (h_high h) (h_free h) (h_total h) (h_blsize h) (h_temps h).
Definition set_recycled (h : heap) (a : Z) : heap :=
  MkHeap (h_page h) (h_hdr h) (h_mem h) (h_blocks h) (h_first h) a (h_black h)
         (h_last h) (h_low h) (h_high h) (h_free h) (h_total h) (h_blsize h) (h_temps h).
Definition set_black (h : heap) (a : Z) (size : Z) : heap :=
  MkHeap (h_page h) (h_hdr h) (h_mem h) (h_blocks h) (h_first h) (h_recycled h) a
         (h_last h) (h_low h) (h_high h) (h_free h) (h_total h) size (h_temps h).
Definition set_last (h : heap) (a : Z) : heap :=
  MkHeap (h_page h) (h_hdr h) (h_mem h) (h_blocks h) (h_first h) (h_recycled h) (h_black h)
         a (h_low h) (h_high h) (h_free h) (h_total h) (h_blsize h) (h_temps h).
Definition set_range (h : heap) (low high : Z) : heap :=
  MkHeap (h_page h) (h_hdr h) (h_mem h) (h_blocks h) (h_first h) (h_recycled h) (h_black h)
         (h_last h) low high (h_free h) (h_total h) (h_blsize h) (h_temps h).
Definition set_free (h : heap) (id : Z) : heap :=
  MkHeap (h_page h) (h_hdr h) (h_mem h) (h_blocks h) (h_first h) (h_recycled h) (h_black h)
         (h_last h) (h_low h) (h_high h) id (h_total h) (h_blsize h) (h_temps h).
Definition set_temps (h : heap) (l : list Z) : heap :=
  MkHeap (h_page h) (h_hdr h) (h_mem h) (h_blocks h) (h_first h) (h_recycled h) (h_black h)
         (h_last h) (h_low h) (h_high h) (h_free h) (h_total h) (h_blsize h) l.

Definition with_prev (p : page) (x : Z) : page :=
  MkPage (pg_id p) (pg_ref p) (pg_num p) (pg_occ p) (pg_onf p) (pg_chunk p) x (pg_next p) (pg_end p).
Definition with_next (p : page) (x : Z) : page :=
  MkPage (pg_id p) (pg_ref p) (pg_num p) (pg_occ p) (pg_onf p) (pg_chunk p) (pg_prev p) x (pg_end p).
Definition with_ref (p : page) (x : Z) : page :=
  MkPage (pg_id p) x (pg_num p) (pg_occ p) (pg_onf p) (pg_chunk p) (pg_prev p) (pg_next p) (pg_end p).
Definition with_occ (p : page) (x : Z) : page :=
  MkPage (pg_id p) (pg_ref p) (pg_num p) x (pg_onf p) (pg_chunk p) (pg_prev p) (pg_next p) (pg_end p).
Definition with_onf (p : page) (x : Z) : page :=
  MkPage (pg_id p) (pg_ref p) (pg_num p) (pg_occ p) x (pg_chunk p) (pg_prev p) (pg_next p) (pg_end p).
Definition modify (h : heap) (a : Z) (f : page -> page) : heap := set_page h a (f (h_page h a)).

Definition page_size (p : page) : Z := pg_num p * pg_chunk p.
(** free(page) *)
Definition drop_block (l : list (Z * Z)) (a : Z) : list (Z * Z) := filter (fun b => negb (fst b =? a)) l.
(** Enough steps to walk any list of pages. *)
Definition walk (h : heap) : nat := S (length (h_blocks h)).

Section Heap.
(** malloc(sizeof(HeapPage) + size): given the pages in use, the address of the data of the new page, or None. *)
Variable malloc : list (Z * Z) -> Z -> option Z.

(** src/umka_vm.c:519-523 and 605-609, taking a page out of a doubly linked list. *)
Definition unlink (h : heap) (a : Z) : heap :=
  let prev := pg_prev (h_page h a) in
  let h := if prev =? 0 then h else modify h prev (fun p => with_next p (pg_next (h_page h a))) in
  let nxt := pg_next (h_page h a) in
  if nxt =? 0 then h else modify h nxt (fun p => with_prev p (pg_prev (h_page h a))).

(** src/umka_vm.c:447-451, pageMoveToRecycled. *)
Definition pageMoveToRecycled (h : heap) (a : Z) : heap :=
  set_recycled (modify h a (fun p => with_next p (h_recycled h))) a.

(** src/umka_vm.c:454-471, pageFindRecycled. *)
Fixpoint pageFindRecycled (fuel : nat) (h : heap) (size : Z) : outcome (heap * Z) :=
  match fuel with
  | O => Err EFuel
  | S f =>
      if h_recycled h =? 0 then Ok (h, 0) else
      let a := h_recycled h in
      let p := h_page h a in
      let h := set_recycled h (pg_next p) in
      let recycledSize := page_size p in
      if size <=? recycledSize then Ok (h, a) else
      pageFindRecycled f (set_blocks h (drop_block (h_blocks h) a) (h_total h - recycledSize)) size
  end.

(** src/umka_vm.c:474-504, pageMayBeReferencedByTemporaries; the walk over fibers and frames is represented by [h_temps]. *)
Definition pageMayBeReferencedByTemporaries (h : heap) (a : Z) : bool :=
  existsb (fun t => (a <=? t) && (t <? pg_end (h_page h a))) (h_temps h).

(** src/umka_vm.c:507-532, pageMoveBlacklistedToRecycled; 512-531, the loop. *)
Fixpoint sweep (fuel : nat) (h : heap) (a : Z) : outcome heap :=
  match fuel with
  | O => Err EFuel
  | S f =>
      if a =? 0 then Ok h else
      let next := pg_next (h_page h a) in
      if pageMayBeReferencedByTemporaries h a then sweep f h next else
      let h := if a =? h_black h then set_black h (pg_next (h_page h a)) (h_blsize h) else h in
      let h := unlink h a in
      let h := pageMoveToRecycled h a in
      let h := set_black h (h_black h) (h_blsize h - page_size (h_page h a)) in
      sweep f h next
  end.
Definition MAX_BLACKLISTED : Z := 16 * 1024 * 1024.
Definition pageMoveBlacklistedToRecycled (h : heap) : outcome heap :=
  if h_blsize h <? MAX_BLACKLISTED then Ok h else sweep (walk h) h (h_black h).

(** src/umka_vm.c:535-548, pageMoveToBlacklisted. *)
Definition pageMoveToBlacklisted (h : heap) (a : Z) : outcome heap :=
  let* h := pageMoveBlacklistedToRecycled h in
  let h := modify h a (fun p => with_next (with_prev p 0) (h_black h)) in
  let h := if h_black h =? 0 then h else modify h (h_black h) (fun p => with_prev p a) in
  Ok (set_black h a (h_blsize h + page_size (h_page h a))).

(** src/umka_vm.c:551-593, pageAdd. *)
Definition pageAdd (h : heap) (numChunks chunkSize : Z) : outcome (heap * Z) :=
  let size := numChunks * chunkSize in
  let* (h, a) := pageFindRecycled (walk h) h size in
  let* (h, a) := (if a =? 0 then
                    match malloc (h_blocks h) size with
                    | None => Err EOutOfMemory
                    | Some a => Ok (set_blocks h ((a, size) :: h_blocks h) (h_total h + size), a)
                    end
                  else Ok (h, a)) in
  let id := h_free h in
  let* id' := chk32 (id + 1) in
  let h := set_free h id' in
  let h := set_page h a (MkPage id 0 numChunks 0 0 chunkSize 0 (h_first h) (a + size)) in
  let h := if h_first h =? 0 then h else modify h (h_first h) (fun p => with_prev p a) in
  let h := set_first h a in
  let low := if (h_low h =? 0) || (a <? h_low h) then a else h_low h in
  let high := if (h_high h =? 0) || (h_high h <? a + size) then a + size else h_high h in
  Ok (set_last (set_range h low high) a, a).

(** src/umka_vm.c:596-618, pageRemove. *)
Definition pageRemove (h : heap) (a : Z) (blacklist : bool) : outcome heap :=
  let h := if a =? h_first h then set_first h (pg_next (h_page h a)) else h in
  let h := unlink h a in
  let h := if a =? h_last h then set_last h (h_first h) else h in
  if blacklist then pageMoveToBlacklisted h a else Ok (pageMoveToRecycled h a).

(** src/umka_vm.c:621-625, pageGetChunk. *)
Definition pageGetChunk (h : heap) (a ptr : Z) : Z := ptr - (ptr - a) mod pg_chunk (h_page h a).

(** src/umka_vm.c:628-638, pageContainsPtr; an uninitialised header is undefined behaviour. *)
Definition pageContainsPtr (h : heap) (a ptr : Z) : outcome bool :=
  if (a <=? ptr) && (ptr <? pg_end (h_page h a)) then
    match h_hdr h (pageGetChunk h a ptr) with
    | None => UB
    | Some c => if hd_ref c <=? 0 then Err EDangling else Ok true
    end
  else Ok false.

(** src/umka_vm.c:641-662, pageFind. *)
Fixpoint findLoop (fuel : nat) (h : heap) (a ptr : Z) : outcome (heap * Z) :=
  match fuel with
  | O => Err EFuel
  | S f =>
      if a =? 0 then Ok (h, 0) else
      let* c := (if a =? h_last h then Ok false else pageContainsPtr h a ptr) in
      if c then Ok (set_last h a, a) else findLoop f h (pg_next (h_page h a)) ptr
  end.
Definition pageFind (h : heap) (ptr : Z) : outcome (heap * Z) :=
  if negb (h_low h =? 0) && (ptr <? h_low h) then Ok (h, 0) else
  if negb (h_high h =? 0) && (h_high h <=? ptr) then Ok (h, 0) else
  let* c := (if h_last h =? 0 then Ok false else pageContainsPtr h (h_last h) ptr) in
  if c then Ok (h, h_last h) else findLoop (walk h) h (h_first h) ptr.

(** src/umka_vm.c:665-691, pageFindForAlloc; the loop. *)
Fixpoint allocLoop (fuel : nat) (h : heap) (a chunkSize bestPage bestSize : Z) : outcome (heap * Z) :=
  match fuel with
  | O => Err EFuel
  | S f =>
      if a =? 0 then Ok (if bestPage =? 0 then h else set_last h bestPage, bestPage) else
      let p := h_page h a in
      if pg_occ p <? pg_num p then
        if pg_chunk p =? chunkSize then Ok (set_last h a, a)
        else if (chunkSize <? pg_chunk p) && (pg_chunk p <? bestSize) then allocLoop f h (pg_next p) chunkSize a (pg_chunk p)
        else allocLoop f h (pg_next p) chunkSize bestPage bestSize
      else allocLoop f h (pg_next p) chunkSize bestPage bestSize
  end.
Definition pageFindForAlloc (h : heap) (chunkSize : Z) : outcome (heap * Z) :=
  allocLoop (walk h) h (h_first h) chunkSize 0 INT_MAX.

(** src/umka_vm.c:694-702, pageFindById. *)
Fixpoint idLoop (fuel : nat) (h : heap) (a id : Z) : outcome Z :=
  match fuel with
  | O => Err EFuel
  | S f => if a =? 0 then Ok 0 else if pg_id (h_page h a) =? id then Ok a else idLoop f h (pg_next (h_page h a)) id
  end.
Definition pageFindById (h : heap) (id : Z) : outcome Z := idLoop (walk h) h (h_first h) id.

(** src/umka_vm.c:705-744, chunkAlloc. MEM_MIN_HEAP_PAGE is 1 MiB (src/umka_vm.h:27); sizeof(HeapChunk) is 40. *)
Definition MIN_PAGE : Z := 1024 * 1024.
Definition chunkAlloc (h : heap) (size onFree : Z) (isStack : bool) : outcome (heap * Z) :=
  let chunkSize := chunkSizeFor size in
  if (size <? 0) || (INT_MAX <? chunkSize) then Err EOutOfMemory else
  let* (h, a) := pageFindForAlloc h chunkSize in
  let* (h, a) := (if a =? 0 then
                    let n := MIN_PAGE / chunkSize in
                    pageAdd h (if n =? 0 then 1 else n) chunkSize
                  else Ok (h, a)) in
  let p := h_page h a in
  let chunk := a + pg_occ p * pg_chunk p in
  let h := set_bytes h (zero_range (h_mem h) chunk (pg_chunk p)) in
  let h := set_hdr h chunk (MkHdr 1 size onFree isStack) in
  let h := modify h a (fun p => with_occ p (pg_occ p + 1)) in
  let h := if onFree =? 0 then h else modify h a (fun p => with_onf p (pg_onf p + 1)) in
  let* r := chk32 (pg_ref (h_page h a) + 1) in
  let h := modify h a (fun p => with_ref p r) in
  Ok (h, chunk + 40).

(** src/umka_vm.c:747-782, chunkRefCnt; the third result lists the callbacks made, with their arguments. *)
Definition chunkRefCnt (h : heap) (a ptr delta : Z) : outcome (heap * Z * list (Z * Z)) :=
  let chunk := pageGetChunk h a ptr in
  match h_hdr h chunk with
  | None => UB
  | Some c =>
      if (hd_ref c <=? 0) || (pg_ref (h_page h a) <? hd_ref c) then Err EWrongRefCnt else
      let call := negb (hd_onFree c =? 0) && (hd_ref c =? 1) && (delta =? -1) in
      let h := if call then modify h a (fun p => with_onf p (pg_onf p - 1)) else h in
      let calls := if call then [(hd_onFree c, ptr)] else [] in
      let* cr := chk32 (hd_ref c + delta) in
      let h := set_hdr h chunk (MkHdr cr (hd_size c) (hd_onFree c) (hd_stack c)) in
      let* pr := chk32 (pg_ref (h_page h a) + delta) in
      let h := modify h a (fun p => with_ref p pr) in
      if pr =? 0 then
        let blacklist := pageMayBeReferencedByTemporaries h a in
        let* h := pageRemove h a blacklist in Ok (h, 0, calls)
      else Ok (h, cr, calls)
  end.

(** src/umka_vm.c:3750-3775, doWeakenPtr. *)
Definition doWeakenPtr (h : heap) (ptr : Z) : outcome (heap * Z) :=
  let* (h, a) := pageFind h ptr in
  if a =? 0 then Ok (h, u64 ptr) else
  match h_hdr h (pageGetChunk h a ptr) with
  | None => UB
  | Some c => if hd_stack c then Err EOther
              else Ok (h, Z.lor (Z.lor two63 (pg_id (h_page h a) * two32)) (ptr - a))
  end.
(** src/umka_vm.c:3778-3807, doStrengthenPtr. *)
Definition doStrengthenPtr (h : heap) (weakPtr : Z) : outcome Z :=
  if Z.testbit weakPtr 63 then
    let pageId := Z.land (Z.shiftr weakPtr 32) 0x7FFFFFFF in
    let* a := pageFindById h pageId in
    if a =? 0 then Ok 0 else
    let ptr := a + Z.land weakPtr 0x7FFFFFFF in
    match h_hdr h (pageGetChunk h a ptr) with
    | None => UB
    | Some c => if hd_stack c then Err EOther else Ok (if hd_ref c =? 0 then 0 else ptr)
    end
  else Ok weakPtr.

(** src/umka_vm.c:404-427, pageFree: the callbacks of the blocks that are still alive; the pages are freed with them. *)
Fixpoint freeChunks (n : nat) (h : heap) (a i onf : Z) : outcome (list (Z * Z)) :=
  match n with
  | O => Ok []
  | S n' =>
      if (i <? pg_occ (h_page h a)) && (0 <? onf) then
        let chunk := a + i * pg_chunk (h_page h a) in
        match h_hdr h chunk with
        | None => UB
        | Some c =>
            if (hd_ref c =? 0) || (hd_onFree c =? 0) then freeChunks n' h a (i + 1) onf
            else let* r := freeChunks n' h a (i + 1) (onf - 1) in Ok ((hd_onFree c, chunk + 40) :: r)
        end
      else Ok []
  end.
Fixpoint freePages (fuel : nat) (h : heap) (a : Z) : outcome (list (Z * Z)) :=
  match fuel with
  | O => Err EFuel
  | S f =>
      if a =? 0 then Ok [] else
      let* x := freeChunks (S (Z.to_nat (pg_occ (h_page h a)))) h a 0 (pg_onf (h_page h a)) in
      let* r := freePages f h (pg_next (h_page h a)) in Ok (x ++ r)
  end.
Definition pageFree (h : heap) : outcome (list (Z * Z)) := freePages (walk h) h (h_first h).

(** Operations on the heap. [ORef p 1] and [ORef p (-1)] are the steps of doRefCntImpl for one pointer that is not null or
    outside the heap (src/umka_vm.c:1240-1251). *)
Inductive op : Type :=
| OAlloc (size onFree : Z) (isStack : bool)
| ORef (ptr delta : Z)
| OWeaken (ptr : Z)
| OStrengthen (weak : Z)
| OWrite (a v : Z)            (* the program writes one byte *)
| OTemps (l : list Z)         (* the temporaries on the stacks change *)
| OMemUsage.                  (* src/umka_vm.c:3066-3071 *)
Inductive out : Type := RPtr (p : Z) | RCalls (l : list (Z * Z)) | RInt (z : Z) | RUnit.

Definition step (h : heap) (o : op) : outcome (heap * out) :=
  match o with
  | OAlloc size f s => let* (h, p) := chunkAlloc h size f s in Ok (h, RPtr p)
  | ORef p d =>
      let* (h, a) := pageFind h p in
      if a =? 0 then Ok (h, RCalls []) else
      let* (h, _, calls) := chunkRefCnt h a p d in Ok (h, RCalls calls)
  | OWeaken p => let* (h, w) := doWeakenPtr h p in Ok (h, RInt w)
  | OStrengthen w => let* p := doStrengthenPtr h w in Ok (h, RPtr p)
  | OWrite a v => Ok (set_bytes h (upd (h_mem h) a v), RUnit)
  | OTemps l => Ok (set_temps h l, RUnit)
  | OMemUsage => Ok (h, RInt (h_total h))
  end.
Fixpoint run (h : heap) (ops : list op) : outcome (heap * list out) :=
  match ops with
  | [] => Ok (h, [])
  | o :: r => let* (h, x) := step h o in let* (h, xs) := run h r in Ok (h, x :: xs)
  end.
End Heap.

(** src/umka_vm.c:391-401, pageInit. *)
Definition init : heap :=
  MkHeap (fun _ => MkPage 0 0 0 0 0 0 0 0 0) (fun _ => None) (fun _ => 0) [] 0 0 0 0 0 0 1 0 0 [].

(** Callbacks of released blocks that use the API themselves: one list of pending releases and one parameter slot are shared
    by all of them.

    Simplifications: a block is a number and holds a fixed list of pointers to other blocks, in the order of its fields;
    pointers to the inside of blocks, pages, weak pointers, stack frames and fibers are left out (for these see HeapModel.v and
    RefModel.v). A callback is a list of API calls. *)
From Coq Require Import ZArith Bool List.
From Verif Require Import Base.
Import ListNotations.
Local Open Scope Z_scope.

(** What a callback does: reads its parameter (umkaGetParam(params, 0)->ptrVal), calls umkaIncRef or umkaDecRef
    (src/umka_api.c:215-224, 286-292). *)
Inductive cmd : Type := CRead | CInc (q : Z) | CDec (q : Z).
(** RefCntCandidate (src/umka_vm.h): a pointer to release, or one whose page is memoized as all it points to is done. *)
Inductive cand : Type := Child (p : Z) | Deferred (p : Z).
(** Callback [p] is called; callback [p] reads [v], having called umkaDecRef [k] times. *)
Inductive event : Type := ECall (p : Z) | ERead (p v : Z) (k : nat).

(** HeapChunk.refCnt, HeapPages.refCntCandidates with the top first, paramsBuf[4] of doGetOnFreeParams, and what happened. *)
Record state : Type := MkSt { s_rc : Z -> Z; s_cands : list cand; s_slot : Z; s_trace : list event }.

Definition upd (f : Z -> Z) (p v : Z) : Z -> Z := fun q => if q =? p then v else f q.
Definition setCands (st : state) (l : list cand) : state := MkSt (s_rc st) l (s_slot st) (s_trace st).
Definition addRc (st : state) (p d : Z) : state := MkSt (upd (s_rc st) p (s_rc st p + d)) (s_cands st) (s_slot st) (s_trace st).
Definition log (st : state) (e : event) : state := MkSt (s_rc st) (s_cands st) (s_slot st) (s_trace st ++ [e]).
(** doGetOnFreeParams (src/umka_vm.c:183-211): the parameter is written to a static buffer. *)
Definition setSlot (st : state) (p : Z) : state := MkSt (s_rc st) (s_cands st) p (s_trace st).

Section Run.
(** The pointers in a block, and its callback (HeapChunk.onFree), if any. *)
Variable children : Z -> list Z.
Variable onFree : Z -> option (list cmd).

(** The API calls of a callback; [dec] is doRefCntImpl with "--". umkaIncRef is doRefCntImpl with "++", which resets the list
    of candidates too and ends with an empty one (src/umka_vm.c:1217-1245). *)
Fixpoint runCmds (dec : Z -> state -> outcome state) (p : Z) (k : nat) (l : list cmd) (st : state) : outcome state :=
  match l with
  | [] => Ok st
  | CRead :: l' => runCmds dec p k l' (log st (ERead p (s_slot st) k))
  | CInc q :: l' =>
      if s_rc st q <=? 0 then Err EWrongRefCnt
      else runCmds dec p k l' (addRc (setCands st []) q 1)
  | CDec q :: l' => let* st' := dec q st in runCmds dec p (S k) l' st'
  end.

(** chunkRefCnt with -1 (src/umka_vm.c:746-778): the callback runs before the count is changed. *)
Definition chunkDec (dec : Z -> state -> outcome state) (p : Z) (st : state) : outcome state :=
  if s_rc st p <=? 0 then Err EWrongRefCnt
  else
    let* st' :=
      match onFree p with
      | Some l => if s_rc st p =? 1 then runCmds dec p 0 l (log (setSlot st p) (ECall p)) else Ok st
      | None => Ok st
      end in
    Ok (addRc st' p (-1)).

(** The loop of doRefCntImpl with "--" (src/umka_vm.c:1228-1402), for pointers. A call from a callback resets the list first
    (src/umka_vm.c:1224-1226). *)
Fixpoint loop (n : nat) (st : state) : outcome state :=
  match n with
  | O => Err EFuel
  | S n' =>
      let dec q st := loop n' (setCands st [Child q]) in
      match s_cands st with
      | [] => Ok st
      | Deferred p :: r => let* st' := chunkDec dec p (setCands st r) in loop n' st'
      | Child p :: r =>
          if 1 <? s_rc st p
          then let* st' := chunkDec dec p (setCands st r) in loop n' st'
          else loop n' (setCands st (rev (map Child (children p)) ++ Deferred p :: r))
      end
  end.
(** vmDecRef (src/umka_vm.c:4345-4348; src/umka_api.c:221-224). *)
Definition decRef (n : nat) (p : Z) (st : state) : outcome state := loop n (setCands st [Child p]).
End Run.

(** The parameter area of a callback (src/umka_vm.c:185-208): the buffer of 4 + 1 slots, the layout in it at 4 - 4, and the
    layout itself. firstSlotIndex is 0 for the upvalues and for the pointer. *)
Definition paramsSize : Z := 5.
Definition paramsStart : Z := 4.
Definition freeNumParams : Z := 2.
Definition freeNumResultParams : Z := 0.
Definition freeFirst (i : Z) : Z := 0.
(** umkaGetParam (src/umka_api.c:286-292) with this layout: the slot of the buffer. *)
Definition getParam (index : Z) : option Z :=
  if (index <? 0) || (freeNumParams - freeNumResultParams - 1 <=? index) then None else Some (paramsStart + freeFirst (index + 1)).
(** umkaGetUpvalue (src/umka_api.c:295-299): the slots of the buffer taken by an UmkaAny of two pointers (src/umka_api.h). *)
Definition getUpvalue : list Z := [paramsStart + freeFirst 0; paramsStart + freeFirst 0 + 1].

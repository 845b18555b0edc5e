(** The compiler's storage: a doubly linked list of allocated chunks. *)
From Coq Require Import ZArith Lia Bool List.
From Verif Require Import Base.
Import ListNotations.
Local Open Scope Z_scope.

(** src/umka_common.h, struct StorageChunk: prev, next, size and the data bytes behind this 24-byte header. *)
Record chunk : Type := { cprev : Z; cnext : Z; csize : Z; cdata : list Z }.
Definition CHUNK_HEADER : Z := 24.

(** The C heap as seen by the storage: the chunks obtained from malloc and not yet freed, by address (0 is NULL), and the
    addresses passed to free so far, latest first. Simplified: a chunk is an object of its own, so that reading or writing
    one never touches another. *)
Record cheap : Type := { live : Z -> option chunk; freed : list Z }.
Record storage : Type := { first : Z; heap : cheap }.

Definition upd (m : Z -> option chunk) (a : Z) (c : option chunk) : Z -> option chunk :=
  fun b => if b =? a then c else m b.

(** free(a): undefined if a is not a live chunk. *)
Definition cfree (h : cheap) (a : Z) : outcome cheap :=
  match live h a with
  | Some _ => Ok {| live := upd (live h) a None; freed := a :: freed h |}
  | None => UB
  end.

(** a->prev = v and a->next = v. *)
Definition setPrev (h : cheap) (a v : Z) : outcome cheap :=
  match live h a with
  | Some c => Ok {| live := upd (live h) a (Some {| cprev := v; cnext := cnext c; csize := csize c; cdata := cdata c |}); freed := freed h |}
  | None => UB
  end.
Definition setNext (h : cheap) (a v : Z) : outcome cheap :=
  match live h a with
  | Some c => Ok {| live := upd (live h) a (Some {| cprev := cprev c; cnext := v; csize := csize c; cdata := cdata c |}); freed := freed h |}
  | None => UB
  end.
Definition setData (h : cheap) (a : Z) (d : list Z) : outcome cheap :=
  match live h a with
  | Some c => Ok {| live := upd (live h) a (Some {| cprev := cprev c; cnext := cnext c; csize := csize c; cdata := d |}); freed := freed h |}
  | None => UB
  end.

(** src/umka_common.c:53-57, storageInit. *)
Definition storageInit (h : cheap) : storage := {| first := 0; heap := h |}.

(** src/umka_common.c:60-68, storageFree. *)
Fixpoint storageFree (fuel : nat) (s : storage) : outcome storage :=
  if first s =? 0 then Ok s else
  match fuel with
  | O => Err EFuel
  | S f =>
      match live (heap s) (first s) with
      | None => UB
      | Some c => let* h := cfree (heap s) (first s) in storageFree f {| first := cnext c; heap := h |}
      end
  end.

(** src/umka_common.c:71-91, storageAdd. [a]: the result of malloc. The result is the address of the data. *)
Definition storageAdd (s : storage) (a size : Z) : outcome (storage * Z) :=
  if (size <? 0) || (INT_MAX <? CHUNK_HEADER + size) then Err EOutOfMemory else
  if a =? 0 then Err EOutOfMemory else
  let h := {| live := upd (live (heap s)) a (Some {| cprev := 0; cnext := first s; csize := size; cdata := repeat 0 (Z.to_nat size) |});
              freed := freed (heap s) |} in
  let* h1 := (if first s =? 0 then Ok h else setPrev h (first s) a) in
  Ok ({| first := a; heap := h1 |}, a + CHUNK_HEADER).

(** src/umka_common.c:128-141, storageRemove. *)
Definition storageRemove (s : storage) (data : Z) : outcome storage :=
  let a := data - CHUNK_HEADER in
  match live (heap s) a with
  | None => UB
  | Some c =>
      let f := if a =? first s then cnext c else first s in
      let* h1 := (if cprev c =? 0 then Ok (heap s) else setNext (heap s) (cprev c) (cnext c)) in
      let* h2 := (if cnext c =? 0 then Ok h1 else setPrev h1 (cnext c) (cprev c)) in
      let* h3 := cfree h2 a in
      Ok {| first := f; heap := h3 |}
  end.

(** src/umka_common.c:144-153, storageRealloc. memcpy of chunk->size bytes: undefined if the new chunk is smaller. *)
Definition storageRealloc (s : storage) (data a size : Z) : outcome (storage * Z) :=
  match live (heap s) (data - CHUNK_HEADER) with
  | None => UB
  | Some c =>
      let* sn := storageAdd s a size in
      let (s1, newData) := sn in
      match live (heap s1) a with
      | None => UB
      | Some c1 =>
          if csize c1 <? csize c then UB else
          let* h2 := setData (heap s1) a (cdata c ++ skipn (length (cdata c)) (cdata c1)) in
          let* s2 := storageRemove {| first := first s1; heap := h2 |} data in
          Ok (s2, newData)
      end
  end.

(** A user of the storage writes a byte of a block it holds. *)
Definition storageWrite (s : storage) (data i b : Z) : outcome storage :=
  match live (heap s) (data - CHUNK_HEADER) with
  | None => UB
  | Some c =>
      if (i <? 0) || (csize c <=? i) then UB else
      let* h := setData (heap s) (data - CHUNK_HEADER) (firstn (Z.to_nat i) (cdata c) ++ b :: skipn (S (Z.to_nat i)) (cdata c)) in
      Ok {| first := first s; heap := h |}
  end.

(** Operations on the storage; [a] is the address malloc returns. *)
Inductive sop : Type :=
| SAdd (a size : Z)
| SRemove (data : Z)
| SRealloc (data a size : Z)
| SWrite (data i b : Z)
| SFreeAll.

Definition sstep (fuel : nat) (s : storage) (o : sop) : outcome (storage * Z) :=
  match o with
  | SAdd a n => storageAdd s a n
  | SRemove p => let* s1 := storageRemove s p in Ok (s1, 0)
  | SRealloc p a n => storageRealloc s p a n
  | SWrite p i b => let* s1 := storageWrite s p i b in Ok (s1, 0)
  | SFreeAll => let* s1 := storageFree fuel s in Ok (s1, 0)
  end.

Fixpoint srun (fuel : nat) (s : storage) (os : list sop) : outcome (storage * list Z) :=
  match os with
  | [] => Ok (s, [])
  | o :: r =>
      let* sx := sstep fuel s o in
      let* sy := srun fuel (fst sx) r in
      Ok (fst sy, snd sx :: snd sy)
  end.

(** Heap blocks as seen by the array and string builtins: byte memory plus the list of allocated blocks.

    An access outside every allocated block is undefined behaviour. The heap page allocator is modelled in HeapModel.v;
    here an allocation simply returns a zeroed block at a fresh address. *)
From Coq Require Import ZArith Lia Bool List.
From Verif Require Import Base NumModel MemModel.
Import ListNotations.
Local Open Scope Z_scope.

Record omem : Type := MkOmem {
  om_mem : mem;
  om_blocks : list (Z * Z);   (* address and size of each allocated block *)
  om_next : Z                 (* first address never used *)
}.

(** Is [a, a+n) inside one allocated block? *)
Definition valid (o : omem) (a n : Z) : bool :=
  existsb (fun b => (fst b <=? a) && (a + n <=? fst b + snd b)) (om_blocks o).

Definition set_mem (o : omem) (m : mem) : omem := MkOmem m (om_blocks o) (om_next o).

(** C library memmove. A zero-length move accesses nothing. *)
Definition memmove (o : omem) (dst src n : Z) : outcome omem :=
  if n <=? 0 then (if n =? 0 then Ok o else UB)
  else if valid o dst n && valid o src n
  then Ok (set_mem o (copy_bytes (Z.to_nat n) (om_mem o) (om_mem o) dst src))
  else UB.

(** C library memcpy: as memmove, but undefined for overlapping ranges. *)
Definition memcpy (o : omem) (dst src n : Z) : outcome omem :=
  if (0 <? n) && (dst <? src + n) && (src <? dst + n) then UB else memmove o dst src n.

(** Access to the int64_t members of StrDimensions/DynArrayDimensions (src/umka_common.h:39-45). *)
Definition load64 (o : omem) (a : Z) : outcome Z :=
  if valid o a 8 then Ok (s64 (load 8 (om_mem o) a)) else UB.
Definition store64 (o : omem) (a v : Z) : outcome omem :=
  if valid o a 8 then Ok (set_mem o (store 8 (om_mem o) a v)) else UB.

(** Access to one char. *)
Definition load8 (o : omem) (a : Z) : outcome Z := if valid o a 1 then Ok (om_mem o a) else UB.
Definition store8 (o : omem) (a v : Z) : outcome omem :=
  if valid o a 1 then Ok (set_mem o (upd (om_mem o) a (v mod 256))) else UB.

(** src/umka_common.h:268-271, align. *)
Definition align (size alignment : Z) : Z := ((size + (alignment - 1)) / alignment) * alignment.

Definition zero_range (m : mem) (a n : Z) : mem := fun x => if (a <=? x) && (x <? a + n) then 0 else m x.

(** src/umka_vm.c:705-744, chunkAlloc, as seen from outside: the size check, then a zeroed block of [size] bytes plus the
    footer byte. sizeof(HeapChunk) is 40 (src/umka_vm.h:167-176, LP64). Simplified: the address is always fresh. *)
Definition chunkSizeFor (size : Z) : Z := align (40 + align (size + 1) 8) 64.
Definition newBlock (o : omem) (size : Z) : omem * Z :=
  (MkOmem (zero_range (om_mem o) (om_next o) (size + 1)) ((om_next o, size + 1) :: om_blocks o) (om_next o + size + 1),
   om_next o).
Definition chunkAlloc (o : omem) (size : Z) : outcome (omem * Z) :=
  if (size <? 0) || (INT_MAX <? chunkSizeFor size) then Err EOutOfMemory else Ok (newBlock o size).

(** Reading and writing a value of [n] bytes as a byte list. *)
Fixpoint read (n : nat) (m : mem) (a : Z) : list Z :=
  match n with O => [] | S n' => m a :: read n' m (a + 1) end.
Fixpoint write (m : mem) (a : Z) (l : list Z) : mem :=
  match l with [] => m | b :: r => write (upd m a b) (a + 1) r end.

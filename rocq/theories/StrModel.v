(** Strings: literals, concatenation, slicing, indexing, comparison, copying and conversions from and to characters and
    character arrays, over byte memory with allocated blocks.

    The reference counting done by these functions is modelled in RefModel.v; a string's storage is never freed here. *)
From Coq Require Import ZArith Lia Bool List.
From Verif Require Import Base NumModel MemModel BlkModel CmpModel DynModel.
Import ListNotations.
Local Open Scope Z_scope.

(** C library string functions, one char at a time; reading outside the allocated blocks is undefined. [fuel] bounds the
    number of characters examined; the callers below give more than the number of addresses in use. *)
Fixpoint strlenFrom (fuel : nat) (o : omem) (a n : Z) : outcome Z :=
  match fuel with
  | O => Err EFuel
  | S f => let* c := load8 o (a + n) in if c =? 0 then Ok n else strlenFrom f o a (n + 1)
  end.
Definition enough (o : omem) : nat := S (Z.to_nat (om_next o)).
Definition strlen (o : omem) (a : Z) : outcome Z := strlenFrom (enough o) o a 0.
(** strcpy: copies the characters and the terminating NUL; undefined if the objects overlap. *)
Definition strcpy (o : omem) (dst src : Z) : outcome omem :=
  let* n := strlen o src in memcpy o dst src (n + 1).
Definition strcat (o : omem) (dst src : Z) : outcome omem :=
  let* n := strlen o dst in strcpy o (dst + n) src.
Fixpoint strcmpFrom (fuel : nat) (o : omem) (p q : Z) : outcome Z :=
  match fuel with
  | O => Err EFuel
  | S f =>
      let* a := load8 o p in
      let* b := load8 o q in
      if a =? b then (if a =? 0 then Ok 0 else strcmpFrom f o (p + 1) (q + 1)) else Ok (if a <? b then -1 else 1)
  end.
Definition strcmp (o : omem) (p q : Z) : outcome Z := strcmpFrom (enough o) o p q.

(** src/umka_common.h:280-283, getStrDims, and its members. *)
Definition strLen (o : omem) (s : Z) : outcome Z := load64 o (s - 16).
Definition strCap (o : omem) (s : Z) : outcome Z := load64 o (s - 8).

(** src/umka_vm.c:1408-1413, the capacity chosen by doAllocStr. *)
Definition strCapFor (len : Z) : Z :=
  let capacity := if LIMIT <? 2 * (len + 1) then LIMIT else 2 * (len + 1) in
  if capacity <? len then len else capacity.
(** src/umka_vm.c:1406-1422, doAllocStr. The callers pass 0 <= len <= INT_MAX, so 2 * (len + 1) does not overflow. *)
Definition doAllocStr (o : omem) (len : Z) : outcome (omem * Z) :=
  let capacity := strCapFor len in
  let* (o, dimsAndData) := chunkAlloc o (16 + capacity) in
  let* o := store64 o dimsAndData len in
  let* o := store64 o (dimsAndData + 8) capacity in
  let data := dimsAndData + 16 in
  let* o := store8 o (data + len) 0 in
  Ok (o, data).

(** src/umka_common.c:91-102, storageAddStr (the compiler's storage of constants; failure of malloc is not modelled). *)
Definition storageAddStr (o : omem) (len : Z) : outcome (omem * Z) :=
  let (o, dimsAndData) := newBlock o (16 + len) in   (* 16 + (len + 1) bytes *)
  let* o := store64 o dimsAndData len in
  let* o := store64 o (dimsAndData + 8) (len + 1) in
  let data := dimsAndData + 16 in
  let* o := store8 o (data + len) 0 in
  Ok (o, data).

Section Str.
Variable emptyStr : Z.    (* address of the static dimsAndData of doGetEmptyStr *)

(** src/umka_vm.c:1425-1436, doGetEmptyStr. *)
Definition doGetEmptyStr (o : omem) : outcome (omem * Z) :=
  let* o := store64 o emptyStr 0 in
  let* o := store64 o (emptyStr + 8) 1 in
  let data := emptyStr + 16 in
  let* o := store8 o data 0 in
  Ok (o, data).
(** if (!str) str = doGetEmptyStr(); *)
Definition nonnull (o : omem) (s : Z) : outcome (omem * Z) := if s =? 0 then doGetEmptyStr o else Ok (o, s).

(** A string literal: src/umka_lexer.c:862-868 (storageAddStr and the second scan writing the characters). *)
Definition literal (o : omem) (bytes : list Z) : outcome (omem * Z) :=
  let* (o, d) := storageAddStr o (Z.of_nat (length bytes)) in
  if (Z.of_nat (length bytes) =? 0) || valid o d (Z.of_nat (length bytes))
  then Ok (set_mem o (write (om_mem o) d bytes), d) else UB.

(** src/umka_vm.c:3449-3467, doBinary for strings, TOK_PLUS and TOK_PLUSEQ, after the choice of inPlace. *)
Definition catCore (o : omem) (inPlace : bool) (lhsStr rhsStr lhsLen rhsLen : Z) : outcome (omem * Z) :=
  let* (o, buf) := (if inPlace then Ok (o, lhsStr)
                    else
                      let* s := chk32 (lhsLen + rhsLen) in
                      let* (o, buf) := doAllocStr o s in
                      let* o := memmove o buf lhsStr lhsLen in
                      Ok (o, buf)) in
  let* n := chk32 (rhsLen + 1) in
  let* o := memmove o (buf + lhsLen) rhsStr n in
  let* s := chk32 (lhsLen + rhsLen) in
  let* o := store64 o (buf - 16) s in
  Ok (o, buf).
(** src/umka_vm.c:3425-3470, doBinary for strings with TOK_PLUS ([plusEq] false) and TOK_PLUSEQ. The lengths are assigned
    to int variables and added in int. doCheckStr is compiled out (src/umka_vm.c:943-952). *)
Definition doStrCat (o : omem) (plusEq : bool) (lhs rhs : Z) : outcome (omem * Z) :=
  let* (o, lhsStr) := nonnull o lhs in
  let* (o, rhsStr) := nonnull o rhs in
  let* l1 := strLen o lhsStr in
  let* l2 := strLen o rhsStr in
  let lhsLen := s32 l1 in
  let rhsLen := s32 l2 in
  let* inPlace := (if plusEq then
                     let* cap := strCap o lhsStr in
                     let* s := chk32 (lhsLen + rhsLen) in
                     let* s := chk32 (s + 1) in
                     Ok (s <=? cap)
                   else Ok false) in
  catCore o inPlace lhsStr rhsStr lhsLen rhsLen.

(** src/umka_vm.c:3472-3477, the comparisons; the six operators are applied to the result as in CmpModel.v. *)
Definition doStrCompare (o : omem) (lhs rhs : Z) : outcome (omem * Z) :=
  let* (o, lhsStr) := nonnull o lhs in
  let* (o, rhsStr) := nonnull o rhs in
  let* c := strcmp o lhsStr rhsStr in
  Ok (o, c).

(** src/umka_expr.c:750-763, doApplyStrCat for constants, with the "+" of constBinary (src/umka_const.c:278). *)
Definition constStrCat (o : omem) (lhs rhs : Z) : outcome (omem * Z) :=
  let* l1 := strLen o lhs in
  let* l2 := strLen o rhs in
  let len := s32 (l1 + l2) in
  let* (o, buf) := storageAddStr o len in
  let* o := strcpy o buf lhs in
  let* o := strcat o buf rhs in
  Ok (o, buf).

(** src/umka_vm.c:2322-2361, doBuiltinMakeStr, for a character [c]. *)
Definition doMakeStrFromChar (o : omem) (c : Z) : outcome (omem * Z) :=
  let* (o, dest) := doGetEmptyStr o in
  let src := c mod 256 in
  if src =? 0 then Ok (o, dest) else
  let* (o, dest) := doAllocStr o 1 in
  let* o := store8 o dest src in
  let* o := store8 o (dest + 1) 0 in
  Ok (o, dest).
(** The same for a dynamic array; the loop at 2351-2352. *)
Fixpoint scanArr (fuel : nat) (o : omem) (src : dynarr) (len : Z) : outcome Z :=
  match fuel with
  | O => Err EFuel
  | S f =>
      let* n := dimsLen o src in
      if len <? n then let* c := load8 o (d_data src + len) in if c =? 0 then Ok len else scanArr f o src (len + 1)
      else Ok len
  end.
Definition doMakeStrFromArr (o : omem) (src : dynarr) : outcome (omem * Z) :=
  let* (o, dest) := doGetEmptyStr o in
  if d_data src =? 0 then Ok (o, dest) else
  let* len := scanArr (enough o) o src 0 in
  let* (o, dest) := doAllocStr o len in
  let* o := memcpy o dest (d_data src) len in
  Ok (o, dest).

(** src/umka_vm.c:2276-2290, doBuiltinMakeFromStr: string to []char. *)
Definition doMakeFromStr (o : omem) (src : Z) : outcome (omem * dynarr) :=
  let* (o, src) := nonnull o src in
  let* n := strLen o src in
  let* (o, dest) := doAllocDynArray 1 o n in
  let* n := dimsLen o dest in
  let* o := memcpy o (d_data dest) src n in
  Ok (o, dest).

(** src/umka_vm.c:2365-2378, doBuiltinCopyStr. *)
Definition doCopyStr (o : omem) (str : Z) : outcome (omem * Z) :=
  if str =? 0 then Ok (o, 0) else
  let* n := strLen o str in
  let* (o, result) := doAllocStr o n in
  let* o := strcpy o result str in
  Ok (o, result).

(** src/umka_vm.c:2664-2677 and 2707-2714, doBuiltinSlice for strings. *)
Definition doSliceStr (o : omem) (str startIndex endIndex : Z) : outcome (omem * Z) :=
  let* (o, str) := nonnull o str in
  let* len := strLen o str in
  let* (s, e) := sliceRange startIndex endIndex len in
  let* (o, substr) := doAllocStr o (e - s) in
  let* o := memcpy o substr (str + s) (e - s) in
  let* o := store8 o (substr + (e - s)) 0 in
  Ok (o, substr).

(** src/umka_vm.c:2853-2859 and 2888-2894, len() and cap() for strings. *)
Definition doLenStr (o : omem) (str : Z) : outcome Z := if str =? 0 then Ok 0 else strLen o str.
Definition doCapStr (o : omem) (str : Z) : outcome Z := if str =? 0 then Ok 0 else strCap o str.

(** src/umka_vm.c:3611-3641, doGetArrayPtr without the dereference; a negative [len] stands for a string. *)
Definition doGetArrayPtr (o : omem) (itemSize len index data : Z) : outcome (omem * Z) :=
  let* (o, len, data) := (if 0 <=? len then (if data =? 0 then Err ENull else Ok (o, len, data))
                          else let* (o, data) := nonnull o data in let* len := strLen o data in Ok (o, len, data)) in
  if (index <? 0) || (len - 1 <? index) then Err EIndex
  else Ok (o, data + itemSize * index).

(** src/umka_vm.c:3708-3721, doGetFieldPtr. *)
Definition doGetFieldPtr (fieldOffset data : Z) : outcome Z := if data =? 0 then Err ENull else Ok (data + fieldOffset).

(** src/umka_gen.c:295-313, optimizeGetArrayPtr: indexing an array of [len] items with a constant index; the compiled
    program computes the item's address with GET_FIELD_PTR. The index is assigned to an int. *)
Definition constArrayPtr (itemSize len index data : Z) : outcome Z :=
  let index := s32 index in
  if (index <? 0) || (len - 1 <? index) then Err EIndex
  else let* off := chk32 (itemSize * index) in doGetFieldPtr off data.

(** src/umka_vm.c:4361-4369, vmMakeStr (umkaMakeStr in the API); [str] is the address of a C string of the host. *)
Definition vmMakeStr (o : omem) (str : Z) : outcome (omem * Z) :=
  if str =? 0 then Ok (o, 0) else
  let* n := strlen o str in
  let* (o, buf) := doAllocStr o n in
  let* o := strcpy o buf str in
  Ok (o, buf).

(** Operations of a program on string variables (numbered by Z). *)
Inductive op : Type :=
| OLit (d : Z) (bytes : list Z)              (* d = "..." *)
| OAssign (d v : Z)                          (* d = v *)
| OConcat (d v w : Z)                        (* d = v + w *)
| OConstConcat (d v w : Z)                   (* d = v + w, both constants *)
| OAppend (v w : Z)                          (* v += w *)
| OSlice (d v i : Z) (e : option Z)
| OCopy (d v : Z)
| OChar (d c : Z)                            (* d = str(c), c: char *)
| OFromBytes (d : Z) (bytes : option (list Z)) (* d = str([]char); None: null array *)
| OToBytes (v : Z)                           (* []char(v) *)
| OMakeStr (d : Z) (bytes : option (list Z)) (* umkaMakeStr; None: NULL *)
| OLen (v : Z)
| OCap (v : Z)
| OIndex (v i : Z)
| OCompare (v w : Z)
| OHost (v : Z).                             (* the host reads v as a C string *)
Inductive out : Type := RUnit | RInt (z : Z) | RBytes (l : list Z) | RNull.

Record state : Type := MkState { st_mem : omem; st_var : Z -> Z }.
Definition setvar (f : Z -> Z) (v x : Z) : Z -> Z := fun y => if y =? v then x else f y.

(** The C string at an address, and a C string of the host's (a block of its own). *)
Definition hostRead (o : omem) (a : Z) : outcome (list Z) :=
  let* n := strlen o a in Ok (read (Z.to_nat n) (om_mem o) a).
Definition hostStr (o : omem) (bytes : list Z) : omem * Z := tmpBlock o (bytes ++ [0]).
(** A []char holding the given bytes. *)
Definition charArr (o : omem) (bytes : list Z) : outcome (omem * dynarr) :=
  let (o, a) := tmpBlock o bytes in doBuiltinMakeFromArr 1 o (Z.of_nat (length bytes)) a.

Definition assign (st : state) (d : Z) (r : outcome (omem * Z)) : outcome (state * out) :=
  let* (m, a) := r in Ok (MkState m (setvar (st_var st) d a), RUnit).

Definition step (st : state) (p : op) : outcome (state * out) :=
  let vs := st_var st in
  let o := st_mem st in
  match p with
  | OLit d b => assign st d (literal o b)
  | OAssign d v => Ok (MkState o (setvar vs d (vs v)), RUnit)
  | OConcat d v w => assign st d (doStrCat o false (vs v) (vs w))
  | OConstConcat d v w => assign st d (constStrCat o (vs v) (vs w))
  | OAppend v w => assign st v (doStrCat o true (vs v) (vs w))
  | OSlice d v i e => assign st d (doSliceStr o (vs v) i (match e with Some e => e | None => INT_MIN end))
  | OCopy d v => assign st d (doCopyStr o (vs v))
  | OChar d c => assign st d (doMakeStrFromChar o c)
  | OFromBytes d None => assign st d (doMakeStrFromArr o dyn_null)
  | OFromBytes d (Some b) => assign st d (let* (o, a) := charArr o b in doMakeStrFromArr o a)
  | OToBytes v =>
      let* (o, a) := doMakeFromStr o (vs v) in
      let* n := dimsLen o a in
      if (n =? 0) || valid o (d_data a) n then Ok (MkState o vs, RBytes (read (Z.to_nat n) (om_mem o) (d_data a))) else UB
  | OMakeStr d None => assign st d (vmMakeStr o 0)
  | OMakeStr d (Some b) => assign st d (let (o, a) := hostStr o b in vmMakeStr o a)
  | OLen v => let* n := doLenStr o (vs v) in Ok (st, RInt n)
  | OCap v => let* n := doCapStr o (vs v) in Ok (st, RInt n)
  | OIndex v i =>
      let* (o, a) := doGetArrayPtr o 1 (-1) i (vs v) in
      let* c := load8 o a in Ok (MkState o vs, RInt c)
  | OCompare v w => let* (o, c) := doStrCompare o (vs v) (vs w) in Ok (MkState o vs, RInt c)
  | OHost v => if vs v =? 0 then Ok (st, RNull) else let* b := hostRead o (vs v) in Ok (st, RBytes b)
  end.

Fixpoint run (st : state) (ops : list op) : outcome (state * list out) :=
  match ops with
  | [] => Ok (st, [])
  | o :: r => let* (st, x) := step st o in let* (st, xs) := run st r in Ok (st, x :: xs)
  end.

(** The state before any operation: the static buffer of doGetEmptyStr, all variables null. Simplification: the buffer
    already holds the values written by the first call (capacity 1); it is only accessed after a call. *)
Definition init : state :=
  MkState (MkOmem (store 8 (fun _ => 0) (emptyStr + 8) 1) [(emptyStr, 17)] (emptyStr + 17)) (fun _ => 0).
End Str.

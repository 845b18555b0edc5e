(** Shared vocabulary: outcomes of a C computation and C machine integers.

    Models no particular function; the integer widths are those of the C types used throughout /repo/src
    (int64_t, uint64_t, int32_t, ... on an LP64, two's complement target; /repo/Makefile builds with
    -O3 -fno-strict-aliasing and without -fwrapv, so signed overflow is undefined behaviour). *)
From Coq Require Import ZArith Lia Bool List.
Import ListNotations.
Local Open Scope Z_scope.

(** Errors reported through error->handler or error->runtimeHandler (src/umka_compiler.c:36-120).
    Only the kind of the message is kept. *)
Inductive err : Type :=
| EOverflow        (* "Overflow of %s", "Overflow in assignment to %s" *)
| EDivZero         (* "Division by zero" *)
| EDomain          (* "xxx() domain error" *)
| EIllegalOp       (* "Illegal operator", "Illegal instruction" *)
| EIllegalType     (* "Illegal type" *)
| EIllegalFn       (* "Illegal function" *)
| ENull            (* "Pointer is null", "Dynamic array is null", ... *)
| EIndex           (* "Index %lld is out of range 0...%lld" *)
| EIllegalLen      (* "Dynamic array length must be non-negative", ... *)
| EDangling        (* "Dangling pointer at %p" *)
| EWrongRefCnt     (* "Wrong reference count for pointer at %p" *)
| EOutOfMemory     (* "Out of memory", "Block size must be ..." *)
| EStackOverflow   (* "Stack overflow" *)
| EEscape          (* "Pointer to a local variable escapes from the function" *)
| EExit            (* normal exit request *)
| ESyntax          (* "%s expected but %s found", other parse errors *)
| EDuplicate       (* "Duplicate declaration of %s", "Duplicate field", "Duplicate case" *)
| ETooMany         (* "Too many ..." *)
| EFuel            (* not in the code: the fuel of a model function ran out *)
| EOther.

(** Outcome of a C computation: a value, a reported error (control leaves by longjmp), or undefined behaviour. *)
Inductive outcome (A : Type) : Type :=
| Ok (a : A)
| Err (e : err)
| UB.
Arguments Ok {A} a.
Arguments Err {A} e.
Arguments UB {A}.

Definition bind {A B} (x : outcome A) (f : A -> outcome B) : outcome B :=
  match x with Ok a => f a | Err e => Err e | UB => UB end.

Definition fmap {A B} (f : A -> B) (x : outcome A) : outcome B :=
  match x with Ok a => Ok (f a) | Err e => Err e | UB => UB end.

Definition is_ok {A} (x : outcome A) : bool := match x with Ok _ => true | _ => false end.

Notation "'let*' x ':=' e 'in' f" := (bind e (fun x => f))
  (at level 200, x pattern, e at level 200, f at level 200, right associativity).

(** ** Machine integers *)
Definition two8  : Z := 256.
Definition two16 : Z := 65536.
Definition two31 : Z := 2147483648.
Definition two32 : Z := 4294967296.
Definition two63 : Z := 9223372036854775808.
Definition two64 : Z := 18446744073709551616.

Definition INT64_MIN : Z := - two63.
Definition INT64_MAX : Z := two63 - 1.
Definition UINT64_MAX : Z := two64 - 1.
Definition INT_MIN : Z := - two31.
Definition INT_MAX : Z := two31 - 1.

Definition in_s64 (z : Z) : Prop := INT64_MIN <= z <= INT64_MAX.
Definition in_u64 (z : Z) : Prop := 0 <= z <= UINT64_MAX.
Definition in_s64b (z : Z) : bool := (INT64_MIN <=? z) && (z <=? INT64_MAX).

(** Conversion to an unsigned (resp. signed two's complement) type of [m] values. *)
Definition wrapu (m z : Z) : Z := z mod m.
Definition wraps (m z : Z) : Z := (z + m / 2) mod m - m / 2.

Definition u64 (z : Z) : Z := wrapu two64 z.
Definition s64 (z : Z) : Z := wraps two64 z.
Definition s32 (z : Z) : Z := wraps two32 z.

(** Signed 64-bit arithmetic result: undefined unless representable (C11 6.5p5). *)
Definition chk64 (z : Z) : outcome Z := if in_s64b z then Ok z else UB.

(** C boolean result as int. *)
Definition b2z (b : bool) : Z := if b then 1 else 0.

(** std::tobytes and std::frombytes (src/umka_runtime_src.h:89-109), and the conversion between struct tm and DateTime
    (src/umka_runtime.c:22-47, 273-301). *)
From Coq Require Import ZArith Lia Bool List.
Import ListNotations.
From Verif Require Import Base BlkModel DynModel FileModel.
Local Open Scope Z_scope.

(** The argument [buf: any]: null, or the memory behind selfptr() with the answers of sizeofself() (the length) and
    selfhasptr() (src/umka_vm.c:2902-2938). *)
Definition anyval := option (bool * list Z).

(** src/umka_runtime.c:50-57, rtlmemcpy over C memcpy: [count] bytes of [src] over the start of [dest]; both must be that
    long. const int count. *)
Definition rtlmemcpy (dest src : list Z) (count : Z) : outcome (list Z) :=
  let n := toSize (s32 count) in
  if (Z.of_nat (length dest) <? n) || (Z.of_nat (length src) <? n) then UB else
  Ok (firstn (Z.to_nat n) src ++ skipn (Z.to_nat n) dest).

(** &a[0] is checked like any index (src/umka_vm.c, doGetDynArrayPtr; C14). *)
Definition first (l : list Z) : outcome (list Z) := match l with [] => Err EIndex | _ => Ok l end.

(** src/umka_runtime_src.h:91-98, tobytes. *)
Definition tobytes (buf : anyval) : outcome (list Z) :=
  match buf with
  | None => Ok []
  | Some (_, l) =>
    let n := Z.of_nat (length l) in
    let* bytes := makeChars n in
    let* d := first bytes in
    rtlmemcpy d l n
  end.

(** src/umka_runtime_src.h:100-109, frombytes: the memory behind [buf] afterwards, the code. *)
Definition frombytes (buf : anyval) (bytes : list Z) : outcome (anyval * Z) :=
  match buf with
  | None => Ok (None, BUFFER)
  | Some (p, l) =>
    if negb (Z.of_nat (length l) =? Z.of_nat (length bytes)) then Ok (buf, BUFFER) else
    if p then Ok (buf, PTR) else
    let* d := first bytes in
    let* l' := rtlmemcpy l d (Z.of_nat (length l)) in
    Ok (Some (p, l'), OK)
  end.

(** C's struct tm (ISO C 7.27.1); all members are int. *)
Record tm := MkTm { tm_sec : Z; tm_min : Z; tm_hour : Z; tm_mday : Z; tm_mon : Z; tm_year : Z; tm_wday : Z; tm_yday : Z; tm_isdst : Z }.

(** src/umka_runtime.h:7-13, RTLDateTime; the numbers are int64_t. *)
Record datetime := MkDt { second : Z; minute : Z; hour : Z; day : Z; month : Z; year : Z; dayOfWeek : Z; dayOfYear : Z; isDST : bool }.

(** Sum of two ints. *)
Definition add32 (a b : Z) : outcome Z := if (INT_MIN <=? a + b) && (a + b <=? INT_MAX) then Ok (a + b) else UB.

(** src/umka_runtime.c:22-33, rtlConvToDateTime. *)
Definition rtlConvToDateTime (src : tm) : outcome datetime :=
  let* mon := add32 (tm_mon src) 1 in
  let* yr := add32 (tm_year src) 1900 in
  let* wd := add32 (tm_wday src) 1 in
  let* yd := add32 (tm_yday src) 1 in
  Ok (MkDt (tm_sec src) (tm_min src) (tm_hour src) (tm_mday src) mon yr wd yd (negb (tm_isdst src =? 0))).

(** src/umka_runtime.c:36-47, rtlConvFromDateTime: int64_t arithmetic, then conversion to int. *)
Definition rtlConvFromDateTime (src : datetime) : outcome tm :=
  let* mon := chk64 (month src - 1) in
  let* yr := chk64 (year src - 1900) in
  let* wd := chk64 (dayOfWeek src - 1) in
  let* yd := chk64 (dayOfYear src - 1) in
  Ok (MkTm (s32 (second src)) (s32 (minute src)) (s32 (hour src)) (s32 (day src)) (s32 mon) (s32 yr) (s32 wd) (s32 yd) (if isDST src then 1 else 0)).

(** src/umka_runtime.c:273-290, rtllocaltime and rtlgmtime; [ctime] is localtime or gmtime of the C library, which return
    NULL for a time whose year does not fit an int. The result is not checked. *)
Definition rtlgmtime (ctime : Z -> option tm) (t : Z) : outcome datetime :=
  match ctime t with Some d => rtlConvToDateTime d | None => UB end.

(** src/umka_runtime.c:293-301, rtlmktime; [cmktime] is mktime of the C library. *)
Definition rtlmktime (cmktime : tm -> Z) (d : datetime) : outcome Z :=
  let* x := rtlConvFromDateTime d in Ok (cmktime x).

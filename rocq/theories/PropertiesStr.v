(** Strings (C15, C16) and indexing of strings and arrays (C14). Only theorems, each with an example. *)
From Coq Require Import ZArith List.
From Verif Require Import Base BlkModel DynModel DynSpec StrModel StrSpec StrExtra.
Import ListNotations.
Local Open Scope Z_scope.

(** C15. Any sequence of string operations returns what the same operations on byte strings return, and raises an error
    exactly when they are undefined (out of range, or longer than the longest string). *)
Theorem C15_strings_are_byte_strings :
  forall emptyStr, 0 < emptyStr -> forall ops, plain s_init ops ->
  match s_run s_init ops with
  | Some (_, xs) => exists st, run emptyStr (init emptyStr) ops = Ok (st, xs)
  | None => exists e, run emptyStr (init emptyStr) ops = Err e
  end.
Proof. exact run_refines. Qed.
Print Assumptions C15_strings_are_byte_strings.

Example C15_case :
  let ops := [OLit 1 [97; 98]; OLit 2 [99]; OConcat 3 1 2; OHost 3; OSlice 4 3 1 (Some (-1)); OHost 4; OAppend 4 3; OHost 4; OLen 4; OCap 4;
              OIndex 4 2; OCompare 1 3; OCompare 3 1; OCompare 5 6; OFromBytes 7 (Some [120; 0; 121]); OHost 7; OToBytes 3; OChar 8 0; OLen 8] in
  plain s_init ops /\
  fmap snd (run 100 (init 100) ops) =
    Ok [RUnit; RUnit; RUnit; RBytes [97; 98; 99]; RUnit; RBytes [98]; RUnit; RBytes [98; 97; 98; 99]; RInt 4; RInt 10;
        RInt 98; RInt (-1); RInt 1; RInt 0; RUnit; RBytes [120]; RBytes [97; 98; 99]; RUnit; RInt 0].
Proof. split; [apply plainb_ok; vm_compute; reflexivity|vm_compute; reflexivity]. Qed.

(** C15. len() always equals the length of the C string seen by the host, and strings contain no NUL. *)
Theorem C15_len_is_c_length :
  forall emptyStr, 0 < emptyStr -> forall st v, reachable emptyStr st -> st_var st v <> 0 ->
  exists b, observe st v = Ok b /\ doLenStr (st_mem st) (st_var st v) = Ok (zlen b) /\
    strlen (st_mem st) (st_var st v) = Ok (zlen b) /\ Forall ch b.
Proof. exact len_strlen. Qed.
Print Assumptions C15_len_is_c_length.

(** C15, refuted when the length of the result does not fit an int: the sum is computed in 32 bits before any check. *)
Theorem C15_concat_overflow :
  forall emptyStr, 0 < emptyStr -> forall st d v w a b, reachable emptyStr st -> observe st v = Ok a -> observe st w = Ok b ->
  INT_MAX < zlen a + zlen b -> step emptyStr st (OConcat d v w) = UB.
Proof. exact concat_overflow. Qed.
Print Assumptions C15_concat_overflow.
Theorem C15_concat_overflow_refuted :
  forall emptyStr, 0 < emptyStr -> exists st, reachable emptyStr st /\ step emptyStr st (OConcat 2 1 1) = UB.
Proof. exact concat_overflow_case. Qed.
Print Assumptions C15_concat_overflow_refuted.

(** C15, refuted for the slice end -2^31, which is taken for a missing end. *)
Theorem C15_slice_sentinel_refuted :
  exists ops, s_run s_init ops = None /\ fmap snd (run 100 (init 100) ops) = Ok [RUnit; RUnit; RBytes [97; 98]].
Proof. exists [OLit 1 [97; 98]; OSlice 2 1 0 (Some INT_MIN); OHost 2]. split; vm_compute; reflexivity. Qed.
Print Assumptions C15_slice_sentinel_refuted.

(** C16. a + b makes a new string; no other variable (so neither operand) changes or shares its buffer. *)
Theorem C16_concat :
  forall emptyStr, 0 < emptyStr -> forall st d v w a b, reachable emptyStr st -> observe st v = Ok a -> observe st w = Ok b ->
  zlen a + zlen b <= INT_MAX ->
  (zlen a + zlen b <= MAXSTR -> is_ok (step emptyStr st (OConcat d v w)) = true) /\
  forall st' x, step emptyStr st (OConcat d v w) = Ok (st', x) -> made_new st st' d (a ++ b).
Proof. exact concat_effect. Qed.
Print Assumptions C16_concat.

(** C16. a += b changes the old buffer exactly when len(a) + len(b) < cap(a), then writes nowhere else (the static empty
    string, rewritten with the same contents, aside), and otherwise leaves it unchanged. *)
Theorem C16_append :
  forall emptyStr, 0 < emptyStr -> forall st v w a b c, reachable emptyStr st -> st_var st v <> 0 ->
  observe st v = Ok a -> observe st w = Ok b -> doCapStr (st_mem st) (st_var st v) = Ok c -> zlen a + zlen b < INT_MAX ->
  (zlen a + zlen b < c -> exists st', step emptyStr st (OAppend v w) = Ok (st', RUnit) /\ changed_in_place st st' v (a ++ b) /\
     forall x, ~ (emptyStr <= x < emptyStr + 17) -> ~ (st_var st v - 16 <= x < st_var st v + c) ->
       om_mem (st_mem st') x = om_mem (st_mem st) x) /\
  (c <= zlen a + zlen b -> (zlen a + zlen b <= MAXSTR -> is_ok (step emptyStr st (OAppend v w)) = true) /\
     forall st' x, step emptyStr st (OAppend v w) = Ok (st', x) -> made_new st st' v (a ++ b)).
Proof. exact append_inplace_effect. Qed.
Print Assumptions C16_append.

(** C16. Appending to a null string. *)
Theorem C16_append_null :
  forall emptyStr, 0 < emptyStr -> forall st v w b, reachable emptyStr st -> st_var st v = 0 -> observe st w = Ok b -> zlen b < INT_MAX ->
  forall st' x, step emptyStr st (OAppend v w) = Ok (st', x) ->
  observe st' v = Ok b /\ forall u, u <> v -> st_var st' u = st_var st u /\ observe st' u = observe st u.
Proof. exact append_null_effect. Qed.
Print Assumptions C16_append_null.

(** A shared string with spare capacity: += through one variable is seen through the other; once the capacity is exhausted
    the variables part. Self-append included. *)
Example C16_case :
  let ops := [OLit 1 [97]; OConcat 2 1 1; OCap 2; OAssign 3 2; OAppend 2 1; OHost 3; OAppend 3 3; OHost 2; OHost 3; OAppend 9 1; OHost 9] in
  plain s_init ops /\
  fmap snd (run 100 (init 100) ops) =
    Ok [RUnit; RUnit; RInt 6; RUnit; RUnit; RBytes [97; 97; 97]; RUnit; RBytes [97; 97; 97]; RBytes [97; 97; 97; 97; 97; 97]; RUnit; RBytes [97]].
Proof. split; [apply plainb_ok; vm_compute; reflexivity|vm_compute; reflexivity]. Qed.

(** C14 for strings. *)
Theorem C14_string_index :
  forall emptyStr, 0 < emptyStr -> forall st v i a, reachable emptyStr st -> observe st v = Ok a ->
  (0 <= i < zlen a -> exists st', step emptyStr st (OIndex v i) = Ok (st', RInt (nth (Z.to_nat i) a 0)) /\ forall w, st_var st' w = st_var st w) /\
  (~ 0 <= i < zlen a -> exists e, step emptyStr st (OIndex v i) = Err e).
Proof. exact string_index. Qed.
Print Assumptions C14_string_index.

(** C14 for arrays: [valid o data (itemSize * n)] says that the array's memory is allocated. *)
Theorem C14_array_index :
  forall emptyStr o itemSize n index data, 0 <= n -> 0 <= itemSize -> data <> 0 -> valid o data (itemSize * n) = true ->
  (0 <= index < n -> doGetArrayPtr emptyStr o itemSize n index data = Ok (o, data + itemSize * index) /\
     valid o (data + itemSize * index) itemSize = true) /\
  (~ 0 <= index < n -> doGetArrayPtr emptyStr o itemSize n index data = Err EIndex).
Proof. exact array_index. Qed.
Print Assumptions C14_array_index.
Example C14_array_case : valid (MkOmem (fun _ => 0) [(64, 24)] 88) 64 (8 * 3) = true.
Proof. reflexivity. Qed.

(** C14, constant index: for an index within an int the compiled access agrees with the checked one ... *)
Theorem C14_constant_index_partial :
  forall emptyStr o itemSize n index data, INT_MIN <= index <= INT_MAX -> 0 <= n -> 0 <= itemSize -> itemSize * n <= INT_MAX -> data <> 0 ->
  constArrayPtr itemSize n index data = fmap snd (doGetArrayPtr emptyStr o itemSize n index data).
Proof. exact const_index. Qed.
Print Assumptions C14_constant_index_partial.
Example C14_constant_case : constArrayPtr 8 3 2 64 = Ok 80 /\ constArrayPtr 8 3 3 64 = Err EIndex.
Proof. split; reflexivity. Qed.
(** ... and refuted beyond: the index is truncated to 32 bits, so a[4294967296] compiles to a[0]. *)
Theorem C14_constant_index_refuted :
  forall emptyStr o, constArrayPtr 8 3 4294967296 64 = Ok 64 /\ doGetArrayPtr emptyStr o 8 3 4294967296 64 = Err EIndex.
Proof. intros. split; reflexivity. Qed.
Print Assumptions C14_constant_index_refuted.

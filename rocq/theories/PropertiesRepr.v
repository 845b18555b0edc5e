(** Theorems about textual representations (C40). *)
From Coq Require Import ZArith Lia List.
From Verif Require Import Base ReprModel ReprSpec ReprProofs.
Import ListNotations.
Local Open Scope Z_scope.

(** The first pass, without a buffer, gives the length of the text of the value, or the error of reading the value. Values may be
    cyclic. Partial: undefined when the text has more than INT_MAX characters (see C40_refuted). *)
Theorem C40_predict_partial : forall C look pretty deref r,
  match text C look pretty deref MAX_DEPTH r with
  | Ok t => fill C look pretty deref MAX_DEPTH r 0 0 None = if INT_MAX <? Z.of_nat (length t) then UB else Ok (Z.of_nat (length t), None)
  | Err e => fill C look pretty deref MAX_DEPTH r 0 0 None = Err e \/ fill C look pretty deref MAX_DEPTH r 0 0 None = UB
  | UB => True
  end.
Proof. exact predict_thm. Qed.
Print Assumptions C40_predict_partial.

(** Both passes: the buffer holds the text and a zero, and nothing is written past the end, whatever the memory held before. *)
Theorem C40_repr_partial : forall C look pretty deref r junk t, text C look pretty deref MAX_DEPTH r = Ok t -> Z.of_nat (length t) < INT_MAX ->
  exists rest, doRepr C look pretty deref r junk = Ok (Z.of_nat (length t), t ++ 0 :: rest).
Proof. exact repr_thm. Qed.
Print Assumptions C40_repr_partial.

(** The C string in the buffer is the whole text. *)
Theorem C40_cstring : forall C look pretty deref r t rest, libOk C -> (forall r n, look r = Ok n -> nodeOk n) ->
  text C look pretty deref MAX_DEPTH r = Ok t -> cstring (t ++ 0 :: rest) = t.
Proof. intros C look pretty deref r t rest CO NO T. apply cstring_clean. exact (clean_text C look pretty deref CO NO MAX_DEPTH r t T). Qed.
Print Assumptions C40_cstring.

(** A list of two: a structure {n: 7 p: ptr} whose pointer leads back to it, and a null interface. *)
Definition lib0 : lib := {| tInt := fun v => [48 + v]; tUInt := fun v => [48 + v]; tReal := fun _ => [48]; tPtr := fun _ => [64]; tHex := fun _ => [48]; tHex2 := fun _ => [48] |}.
Definition look0 (r : ref) : outcome node :=
  if r =? 0 then Ok (NArr [1; 4]) else if r =? 1 then Ok (NStruct false [([110], 2); ([112], 3)]) else if r =? 2 then Ok (NInt 7) else if r =? 3 then Ok (NPtr 1 (Some 1)) else if r =? 4 then Ok (NIface None) else Err ENull.
Example C40_example :
  fmap (fun x => cstring (snd x)) (doRepr lib0 look0 false false 0 (repeat 255 400)) =
    Ok [91; 123; 110; 58; 32; 55; 32; 112; 58; 32; 64; 125; 32; 110; 117; 108; 108; 93] (* [{n: 7 p: @} null] *) /\
  fmap fst (doRepr lib0 look0 false true 0 (repeat 255 400)) = fmap (fun t => Z.of_nat (length t)) (text lib0 look0 false true MAX_DEPTH 0) /\
  fmap fst (doRepr lib0 look0 true true 0 (repeat 255 4000)) = fmap (fun t => Z.of_nat (length t)) (text lib0 look0 true true MAX_DEPTH 0) /\
  fmap (firstn 20) (text lib0 look0 true true MAX_DEPTH 0) = Ok (91 :: 10 :: repeat 32 4 ++ 123 :: 10 :: repeat 32 8 ++ [110; 58; 32; 55]) /\
  (exists t, text lib0 look0 true true MAX_DEPTH 0 = Ok t /\ Z.of_nat (length t) < INT_MAX) /\ doRepr lib0 look0 true true 9 [] = Err ENull.
Proof.
  split; [vm_compute; reflexivity|]. split; [vm_compute; reflexivity|]. split; [vm_compute; reflexivity|]. split; [vm_compute; reflexivity|].
  split; [|vm_compute; reflexivity].
  assert (X : match text lib0 look0 true true MAX_DEPTH 0 with Ok t => (Z.of_nat (length t) <? INT_MAX) = true | _ => False end) by (vm_compute; reflexivity).
  destruct (text lib0 look0 true true MAX_DEPTH 0) as [t| |]; [|contradiction|contradiction]. exists t. split; [reflexivity|lia].
Qed.

(** sprintf: the string is the concatenation of what the library prints for each piece, with its length and the count, whatever the
    memory held before. Partial: for results up to 1024 bytes below 2^31 bytes. *)
Theorem C40_sprintf_partial : forall texts junk, Z.of_nat (length (concat texts)) + 1 <= INT_MAX - 1024 ->
  exists s, sprintfAll emptyStr 0 texts junk = Ok (s, Z.of_nat (length (concat texts))) /\ rlen s = Z.of_nat (length (concat texts)) /\
    exists rest, rbuf s = concat texts ++ 0 :: rest.
Proof.
  intros texts junk H. assert (E : strOk emptyStr []) by (split; [reflexivity|exists []; reflexivity]).
  destruct (sprintf_thm texts emptyStr [] junk E) as (s & A & B & D); [exact H|]. exists s. auto.
Qed.
Print Assumptions C40_sprintf_partial.
Example C40_sprintf_example : fmap (fun x => (rlen (fst x), cstring (rbuf (fst x)), snd x)) (sprintfAll emptyStr 0 [[97; 61; 55]; []; [44; 98]; repeat 99 7] (repeat 255 9)) = Ok (12, [97; 61; 55; 44; 98] ++ repeat 99 7, 12).
Proof. vm_compute. reflexivity. Qed.

(** A list with a string of 2^30 characters twice: the length is no int. *)
Theorem C40_refuted : exists C look t, text C look false false MAX_DEPTH 0 = Ok t /\ fill C look false false MAX_DEPTH 0 0 0 None = UB.
Proof. exact long_ub. Qed.
Print Assumptions C40_refuted.

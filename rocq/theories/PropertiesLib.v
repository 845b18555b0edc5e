(** Library functions: UTF-8 (C50, C51), trimming (C52), random numbers (C53), functional tools (C54). *)
From Coq Require Import ZArith NArith Lia Bool List.
From Verif Require Import Base LibModel LibSpec LibProofs LibRand.
Import ListNotations.
Local Open Scope Z_scope.

(** C50: encode gives UTF-8. *)
Theorem C50_encode : forall rs, Forall is_rune rs -> encode rs [] = Ok (concat (map utf8 rs)).
Proof. exact encode_utf8. Qed.
Print Assumptions C50_encode.
Example C50_encode_ex : Forall is_rune [72; 233; 8364; 128512] /\ encode [72; 233; 8364; 128512] [] = Ok [72; 195; 169; 226; 130; 172; 240; 159; 152; 128].
Proof. split; [repeat constructor; discriminate|vm_compute; reflexivity]. Qed.

(** C50: encode for all runes: an error, an empty string, the replacement character or UTF-8. *)
Theorem C50_encode_any : forall r, encodeRune r = if r <? 0 then Err EOverflow else if r =? 0 then Ok [] else if 1114111 <? r then Ok [239; 191; 189] else Ok (utf8 r).
Proof. exact encodeRune_other. Qed.
Print Assumptions C50_encode_any.

(** C50: decode undoes encode, except for U+FFFD. *)
Theorem C50_decode_encode_partial : forall rs s, Forall is_rune rs -> ~ In 65533 rs -> encode rs [] = Ok s -> forall fuel, (length rs < fuel)%nat -> decode fuel s = Ok rs.
Proof. exact decode_encode. Qed.
Print Assumptions C50_decode_encode_partial.
Example C50_decode_encode_ex : ~ In 65533 [72; 233; 8364; 128512] /\ decode 5 [72; 195; 169; 226; 130; 172; 240; 159; 152; 128] = Ok [72; 233; 8364; 128512].
Proof. split; [cbn; intuition discriminate|vm_compute; reflexivity]. Qed.

(** C50: decoding stops at a legitimate U+FFFD, and the rune 0 is lost. *)
Theorem C50_decode_encode_refuted : exists rs s, Forall is_rune rs /\ encode rs [] = Ok s /\ (forall fuel, (length rs < fuel)%nat -> decode fuel s = Ok [65]) /\ rs = [65; 65533; 66].
Proof.
  exists [65; 65533; 66], [65; 239; 191; 189; 66]. repeat split; [repeat constructor; discriminate|].
  intros fuel H. apply (decode_utf8 [65] [239; 191; 189; 66]); [repeat constructor; discriminate|cbn; intuition discriminate|repeat constructor; discriminate|right; reflexivity|cbn in *; lia].
Qed.
Print Assumptions C50_decode_encode_refuted.
Theorem C50_zero_refuted : exists s, encode [65; 0; 66] [] = Ok s /\ decode 10 s = Ok [65; 66].
Proof. exists [65; 66]. split; vm_compute; reflexivity. Qed.
Print Assumptions C50_zero_refuted.

(** C50: decode of well-formed UTF-8 followed by bytes that start no sequence. *)
Theorem C50_decode_prefix : forall rs rest, Forall is_rune rs -> ~ In 65533 rs -> Forall is_byte rest -> lenient rest = None \/ lenient rest = Some 65533 ->
  forall fuel, (length rs < fuel)%nat -> decode fuel (concat (map utf8 rs) ++ rest) = Ok rs.
Proof. exact decode_utf8. Qed.
Print Assumptions C50_decode_prefix.
Example C50_decode_prefix_ex : lenient [226; 130; 65] = None /\ decode 4 ([72; 195; 169] ++ [226; 130; 65]) = Ok [72; 233].
Proof. split; vm_compute; reflexivity. Qed.

(** C50: what one step of decoding gives, for any bytes. *)
Theorem C50_decode_rune : forall pre post, Forall is_byte post -> post <> [] ->
  decodeRune (pre ++ post) (Z.of_nat (length pre)) = Ok (match lenient post with Some v => v | None => 65533 end).
Proof. exact decodeRune_lenient. Qed.
Print Assumptions C50_decode_rune.
Example C50_decode_rune_ex : lenient [226; 130; 172; 65] = Some 8364 /\ decodeRune ([72] ++ [226; 130; 172; 65]) 1 = Ok 8364.
Proof. split; vm_compute; reflexivity. Qed.

(** C50: overlong forms and surrogates are accepted. *)
Theorem C50_strict_refuted : decode 10 [193; 129] = Ok [65] /\ decode 10 [237; 160; 128] = Ok [55296].
Proof. split; vm_compute; reflexivity. Qed.
Print Assumptions C50_strict_refuted.

(** C51: decode ends, within one step per byte, for strings without code points above 0x10FFFF. *)
Theorem C51_decode_ends_partial : forall s fuel, Forall is_byte s -> in_unicode s -> (length s < fuel)%nat ->
  exists rs, decode fuel s = Ok rs /\ (length rs <= length s)%nat /\ Forall (fun r => 0 <= r <= 1114111) rs.
Proof. exact decode_ends. Qed.
Print Assumptions C51_decode_ends_partial.
Example C51_decode_ends_ex : Forall is_byte [65; 195; 40; 255] /\ in_unicode [65; 195; 40; 255] /\ decode 5 [65; 195; 40; 255] = Ok [65].
Proof.
  split; [repeat constructor; discriminate|]. split; [|vm_compute; reflexivity].
  intros pre post v E L. destruct pre as [|a [|b [|c [|d pre]]]]; cbn [Datatypes.app] in E.
  - rewrite <- E in L. injection L as <-. lia.
  - injection E as _ <-. discriminate L.
  - injection E as _ _ <-. injection L as <-. lia.
  - injection E as _ _ _ <-. discriminate L.
  - injection E as _ _ _ _ E. destruct pre, post; try discriminate E. discriminate L.
Qed.

(** C51: a code point above 0x10FFFF makes decode and runeCount loop forever, or go back before the start of the string. *)
Theorem C51_decode_ends_refuted : (forall fuel, decode fuel [97; 247; 191; 191; 191] = Err EFuel) /\ decode 2 [247; 191; 191; 191] = Err EIndex.
Proof. split; [exact decode_hangs|vm_compute; reflexivity]. Qed.
Print Assumptions C51_decode_ends_refuted.

(** C51: runeCount is the number of runes decoded, for all strings. *)
Theorem C51_rune_count : forall fuel s, runeCount fuel s = fmap (fun l => Z.of_nat (length l)) (decode fuel s).
Proof. exact count_decode. Qed.
Print Assumptions C51_rune_count.
Example C51_rune_count_ex : runeCount 9 [72; 195; 169; 226; 130; 172] = Ok 3.
Proof. vm_compute. reflexivity. Qed.

(** C52: trimming. *)
Theorem C52_ltrim : forall s, trimmed_left s (ltrim s).
Proof. exact ltrim_spec. Qed.
Print Assumptions C52_ltrim.
Theorem C52_rtrim : forall s, trimmed_right s (rtrim s).
Proof. exact rtrim_spec. Qed.
Print Assumptions C52_rtrim.
Theorem C52_trim : forall s, trimmed s (trim s).
Proof. exact trim_spec. Qed.
Print Assumptions C52_trim.
Theorem C52_trim_only : forall s t, trimmed s t -> t = trim s.
Proof. intros s t H. exact (trimmed_unique s t (trim s) H (trim_spec s)). Qed.
Print Assumptions C52_trim_only.
Theorem C52_trim_twice : forall s, trim (trim s) = trim s.
Proof. exact trim_idempotent. Qed.
Print Assumptions C52_trim_twice.
Example C52_trim_ex : trim [32; 9; 97; 32; 98; 200; 10; 32] = [97; 32; 98; 200] /\ trim [32; 10] = [].
Proof. split; vm_compute; reflexivity. Qed.

(** C53: random numbers. The state before the next call after [n] calls. *)
Definition after_calls (n s : N) : N := N.iter n (fun s => fst (rand s)) s.
Theorem C53_period : forall s, (s < 2 ^ 64)%N -> s <> 0%N ->
  after_calls (2 ^ 64 - 1) s = s /\ (forall d, (0 < d < 2 ^ 64 - 1)%N -> after_calls d s <> s) /\ (forall n, after_calls n s <> 0%N /\ (after_calls n s < 2 ^ 64)%N).
Proof.
  intros s H NZ. split; [exact (rand_period s H)|]. split; [intros d [D0 D1]; exact (rand_order d s H NZ D0 D1)|].
  intro n. split; [exact (rand_nonzero n s H NZ)|exact (iter_lt n s H)].
Qed.
Print Assumptions C53_period.
Theorem C53_range : forall s, (snd (rand s) <= 2147483647)%N.
Proof. exact rand_range. Qed.
Print Assumptions C53_range.
(** C53: every state and every result is reached. *)
Theorem C53_states : forall s t, (s < 2 ^ 64)%N -> s <> 0%N -> (t < 2 ^ 64)%N -> t <> 0%N -> exists i, (i < 2 ^ 64 - 1)%N /\ after_calls i s = t.
Proof. exact rand_all_states. Qed.
Print Assumptions C53_states.
Theorem C53_results : forall s r, (s < 2 ^ 64)%N -> s <> 0%N -> (r <= 2147483647)%N -> exists i, (i < 2 ^ 64 - 1)%N /\ snd (rand (after_calls i s)) = r.
Proof. exact rand_all_results. Qed.
Print Assumptions C53_results.
Theorem C53_srand : forall seed s, (s < 2 ^ 64)%N -> s <> 0%N -> seed <= INT_MAX -> (srand seed s < 2 ^ 64)%N /\ srand seed s <> 0%N.
Proof. exact srand_state. Qed.
Print Assumptions C53_srand.
Example C53_ex : (1 < 2 ^ 64)%N /\ snd (rand 1) = 1082269761%N /\ snd (rand (after_calls 1 1)) = 201397313%N.
Proof. vm_compute. auto. Qed.

(** C54: transform, filter and reduce, for callbacks that leave the array as it is. *)
Theorem C54_transform : forall (S A B : Type) (arr : S -> list A) (f : A -> S -> outcome (B * S)) (zero : B), (forall x s p, f x s = Ok p -> arr (snd p) = arr s) ->
  forall s fuel, (length (arr s) < fuel)%nat -> transform S A B arr fuel zero f s = map_in_order f (arr s) s.
Proof. intros S A B arr. exact (transform_spec arr B). Qed.
Print Assumptions C54_transform.
Theorem C54_filter : forall (S A : Type) (arr : S -> list A) (f : A -> S -> outcome (bool * S)), (forall x s p, f x s = Ok p -> arr (snd p) = arr s) ->
  forall s fuel, (length (arr s) < fuel)%nat -> filter_ S A arr fuel f s = fmap (fun q => (keep (arr s) (fst q), snd q)) (map_in_order f (arr s) s).
Proof. exact @filter_spec. Qed.
Print Assumptions C54_filter.
Theorem C54_reduce : forall (S A : Type) (arr : S -> list A) (f : A -> A -> S -> outcome (A * S)), (forall x y s p, f x y s = Ok p -> arr (snd p) = arr s) ->
  forall s fuel, (length (arr s) < fuel)%nat -> reduce S A arr fuel f s = match arr s with [] => Err EIndex | x :: l => fold_in_order f l x s end.
Proof. exact @reduce_spec. Qed.
Print Assumptions C54_reduce.
(** The state is the array and a counter of calls; the callback keeps the array. *)
Definition C54_f (x : Z) (s : list Z * Z) : outcome (Z * (list Z * Z)) := if x =? 0 then Err EDivZero else Ok (100 / x, (fst s, snd s + 1)).
Example C54_ex : (forall x s p, C54_f x s = Ok p -> fst (snd p) = fst s) /\
  transform (list Z * Z) Z Z fst 4 0 C54_f ([5; 7; 50], 0) = Ok ([20; 14; 2], ([5; 7; 50], 3)) /\
  transform (list Z * Z) Z Z fst 4 0 C54_f ([5; 0; 50], 0) = Err EDivZero /\
  filter_ (list Z * Z) Z fst 4 (fun x s => Ok (6 <? x, s)) ([5; 7; 50], 0) = Ok ([7; 50], ([5; 7; 50], 0)) /\
  reduce (list Z * Z) Z fst 4 (fun x y s => Ok (x - y, s)) ([5; 7; 50], 0) = Ok (-52, ([5; 7; 50], 0)).
Proof.
  split; [|vm_compute; auto]. intros x s p. unfold C54_f. destruct (x =? 0); [discriminate|]. intro E. injection E as <-. reflexivity.
Qed.

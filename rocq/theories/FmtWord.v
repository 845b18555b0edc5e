(** Proofs about the reading of a word by scanf. *)
From Coq Require Import ZArith Lia Bool ZifyBool List.
From Verif Require Import Base NumModel FmtModel.
Import ListNotations.
Local Open Scope Z_scope.

Lemma skip_spaces : forall sp c r len, Forall (fun c => isSpace c = true) sp -> isSpace c = false -> skipSpaces (sp ++ c :: r) len = Ok (c, r, len + Z.of_nat (length sp) + 1).
Proof.
  induction sp as [|x sp IH]; intros c r len F N; cbn [skipSpaces app length].
  - rewrite N. f_equal. f_equal. lia.
  - inversion F as [|a b F1 F2]; subst. rewrite F1, IH by assumption. f_equal. f_equal. lia.
Qed.

Lemma read_word : forall w ch e r len buf cap, Forall (fun c => isEnd c = false) w -> isEnd e = true -> w ++ [e] <> [] ->
  ch :: r = w ++ e :: skipn (length w) r ->
  Z.of_nat (length buf) < cap - 1 -> 8 <= cap -> cap <= 2 * (Z.of_nat (length buf) + 8) -> 4 * (Z.of_nat (length buf) + Z.of_nat (length w)) + 32 <= INT_MAX ->
  readWord ch r len buf cap = Ok (buf ++ w, len + Z.of_nat (length w), skipn (length w) r).
Proof.
  induction w as [|x w IH]; intros ch e r len buf cap F E NE C B C8 CU LIM.
  - cbn [app length skipn] in *. injection C as ->. assert (X : readWord e r len buf cap = if isEnd e then if cap <=? Z.of_nat (length buf) then UB else Ok (buf, len, r) else readWord e r len buf cap).
    { destruct r; cbn [readWord]; rewrite E; reflexivity. }
    rewrite X, E. replace (cap <=? Z.of_nat (length buf)) with false by lia. rewrite app_nil_r. do 3 f_equal. lia.
  - inversion F as [|a b F1 F2]; subst a b. cbn [app length] in C. injection C as -> C. cbn [length] in LIM.
    destruct r as [|c r]; [destruct w; discriminate|]. cbn [skipn] in C. cbn [readWord]. rewrite F1. replace (cap <=? Z.of_nat (length buf)) with false by lia.
    rewrite app_length. cbn [length]. 
    destruct (Z.of_nat (length buf + 1) =? cap - 1) eqn:G.
    + replace (INT_MAX <? cap * 2) with false by lia. rewrite (IH c e r (len + 1) (buf ++ [x]) (cap * 2) F2 E); [| destruct w; discriminate | exact C | rewrite app_length; cbn [length]; lia | lia | rewrite app_length; cbn [length]; lia | rewrite app_length; cbn [length]; lia].
      cbn [length skipn]. rewrite <- app_assoc. cbn [app]. do 3 f_equal. lia.
    + replace (INT_MAX <? cap) with false by lia. rewrite (IH c e r (len + 1) (buf ++ [x]) cap F2 E); [| destruct w; discriminate | exact C | rewrite app_length; cbn [length]; lia | lia | rewrite app_length; cbn [length]; lia | rewrite app_length; cbn [length]; lia].
      cbn [length skipn]. rewrite <- app_assoc. cbn [app]. do 3 f_equal. lia.
Qed.

(** The word is followed by a character that ends it; this character is consumed too. *)
Lemma word_thm : forall sp w e rest, Forall (fun c => isSpace c = true) sp -> Forall (fun c => isEnd c = false) w -> isEnd e = true -> (w = [] -> isSpace e = false) ->
  4 * Z.of_nat (length w) + 32 <= INT_MAX -> forall src, src ++ [0] = sp ++ w ++ e :: rest ->
  fsscanfString src = Ok (w, Z.of_nat (length sp + length w + 1), rest).
Proof.
  intros sp w e rest FS FW E NE LIM src SRC. unfold fsscanfString. rewrite SRC.
  assert (H : exists ch r, w ++ e :: rest = ch :: r /\ isSpace ch = false /\ r = skipn 1 (w ++ e :: rest)).
  { destruct w as [|x w]; cbn [app].
    - exists e, rest. cbn. auto.
    - exists x, (w ++ e :: rest). inversion FW as [|a b F1 F2]; subst. unfold isEnd in F1. split; [reflexivity|]. split; [|reflexivity]. destruct (isSpace x); [rewrite orb_true_r in F1; discriminate|reflexivity]. }
  destruct H as (ch & r & EQ & NS & R). rewrite EQ, skip_spaces by assumption. cbn [bind fst snd].
  assert (SK : skipn (length w) r = rest).
  { rewrite R. clear. induction w as [|y w IH]; [reflexivity|]. cbn [app length]. destruct w as [|z w]; [reflexivity|]. cbn [app length skipn] in *. exact IH. }
  rewrite (read_word w ch e r _ [] 8 FW E); [| destruct w; discriminate | rewrite SK, <- EQ; reflexivity | cbn [length]; lia | lia | cbn [length]; lia | cbn [length]; lia].
  rewrite SK. cbn [app]. do 3 f_equal. lia.
Qed.

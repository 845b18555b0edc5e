From Coq Require Import ZArith Lia Bool List ZifyBool.
From Verif Require Import Base LibModel LibSpec.
Import ListNotations.
Local Open Scope Z_scope.
Ltac Zify.zify_post_hook ::= Z.div_mod_to_equations.

(** ** Bits *)
Definition upto (n : nat) : list Z := map Z.of_nat (seq 0 n).
Lemma upto_all : forall (P : Z -> bool) n, forallb P (upto n) = true -> forall x, 0 <= x < Z.of_nat n -> P x = true.
Proof.
  intros P n H x Hx. rewrite forallb_forall in H. apply H. unfold upto. apply in_map_iff. exists (Z.to_nat x). split; [lia|]. apply in_seq. lia.
Qed.

Lemma lor_add : forall a b k, 0 <= k -> 0 <= b < 2 ^ k -> Z.lor (a * 2 ^ k) b = a * 2 ^ k + b.
Proof.
  intros a b k Hk Hb.
  assert (D : Z.land (a * 2 ^ k) b = 0).
  { apply Z.bits_inj'. intros n Hn. rewrite Z.land_spec, Z.bits_0. destruct (Z.ltb_spec n k).
    - rewrite Z.mul_pow2_bits_low by lia. reflexivity.
    - assert (Z.testbit b n = false) as ->; [|apply andb_false_r].
      destruct (Z.eq_dec b 0) as [->|]; [apply Z.bits_0|]. apply Z.bits_above_log2; [lia|].
      assert (Z.log2 b < k) by (apply Z.log2_lt_pow2; lia). lia. }
  rewrite <- Z.lxor_lor by exact D. symmetry. apply Z.add_nocarry_lxor. exact D.
Qed.
Lemma land63 : forall x, Z.land x 63 = x mod 64.
Proof. intro x. exact (Z.land_ones x 6 ltac:(lia)). Qed.
Lemma land255 : forall x, Z.land x 255 = x mod 256.
Proof. intro x. exact (Z.land_ones x 8 ltac:(lia)). Qed.
Lemma shr : forall x k, 0 <= k -> Z.shiftr x k = x / 2 ^ k.
Proof. intros. apply Z.shiftr_div_pow2. lia. Qed.
Lemma cont_byte : forall x, 0 <= x < 64 -> Z.lor x 128 = 128 + x.
Proof. intros x H. apply Z.eqb_eq. apply (upto_all (fun x => Z.lor x 128 =? 128 + x) 64); [vm_compute; reflexivity|lia]. Qed.
Lemma head2 : forall x, 0 <= x < 32 -> Z.land (Z.lor x 192) 255 = 192 + x.
Proof. intros x H. apply Z.eqb_eq. apply (upto_all (fun x => Z.land (Z.lor x 192) 255 =? 192 + x) 32); [vm_compute; reflexivity|lia]. Qed.
Lemma head3 : forall x, 0 <= x < 16 -> Z.land (Z.lor x 224) 255 = 224 + x.
Proof. intros x H. apply Z.eqb_eq. apply (upto_all (fun x => Z.land (Z.lor x 224) 255 =? 224 + x) 16); [vm_compute; reflexivity|lia]. Qed.
Lemma head4 : forall x, 0 <= x < 8 -> Z.land (Z.lor x 240) 255 = 240 + x.
Proof. intros x H. apply Z.eqb_eq. apply (upto_all (fun x => Z.land (Z.lor x 240) 255 =? 240 + x) 8); [vm_compute; reflexivity|lia]. Qed.

Lemma toChar_ok : forall x, is_byte x -> toChar x = Ok x.
Proof. intros x [H1 H2]. unfold toChar. replace ((0 <=? x) && (x <=? 255)) with true by lia. reflexivity. Qed.
Lemma toStr_cons : forall c l, c <> 0 -> toStr (c :: l) = c :: toStr l.
Proof. intros c l H. cbn [toStr]. destruct (Z.eqb_spec c 0); [contradiction|reflexivity]. Qed.

(** ** encode *)
Theorem encodeRune_utf8 : forall r, is_rune r -> encodeRune r = Ok (utf8 r).
Proof.
  intros r [H1 H2]. unfold encodeRune, runeSize, utf8.
  destruct (Z.leb_spec r 127).
  { replace (r <? 128) with true by lia. cbn [Z.leb Z.eqb Z.compare Pos.eqb]. rewrite toChar_ok by (split; lia). cbn [bind]. rewrite toStr_cons by lia. reflexivity. }
  replace (r <? 128) with false by lia.
  destruct (Z.leb_spec r 2047).
  { replace (r <? 2048) with true by lia. cbn [Z.leb Z.eqb Z.compare Pos.eqb].
    change ((2 - 1) * 6) with 6. change (headerOnes 2) with (@Ok Z 192). change (Z.to_nat (2 - 1)) with 1%nat. cbn [bind encodeTail].
    change (6 - 6) with 0. rewrite !shr by lia. change (2 ^ 6) with 64. change (2 ^ 0) with 1. rewrite (land255 (r / 64)), land63, Z.div_1_r.
    rewrite (Z.mod_small (r / 64)) by lia. rewrite head2 by lia. rewrite toChar_ok by (split; lia). cbn [bind].
    rewrite cont_byte by lia. rewrite toChar_ok by (split; lia). cbn [bind].
    rewrite !toStr_cons by lia. reflexivity. }
  replace (r <? 2048) with false by lia.
  destruct (Z.leb_spec r 65535).
  { replace (r <? 65536) with true by lia. cbn [Z.leb Z.eqb Z.compare Pos.eqb].
    change ((3 - 1) * 6) with 12. change (headerOnes 3) with (@Ok Z 224). change (Z.to_nat (3 - 1)) with 2%nat. cbn [bind encodeTail].
    change (12 - 6) with 6. change (6 - 6) with 0. rewrite !shr by lia. change (2 ^ 12) with 4096. change (2 ^ 6) with 64. change (2 ^ 0) with 1.
    rewrite (land255 (r / 4096)), !land63, Z.div_1_r.
    rewrite (Z.mod_small (r / 4096)) by lia. rewrite head3 by lia. rewrite toChar_ok by (split; lia). cbn [bind].
    rewrite !cont_byte by lia. rewrite !toChar_ok by (split; lia). cbn [bind].
    rewrite !toStr_cons by lia. reflexivity. }
  replace (r <? 65536) with false by lia. replace (r <=? 1114111) with true by lia. cbn [Z.leb Z.eqb Z.compare Pos.eqb].
  change ((4 - 1) * 6) with 18. change (headerOnes 4) with (@Ok Z 240). change (Z.to_nat (4 - 1)) with 3%nat. cbn [bind encodeTail].
  change (18 - 6) with 12. change (12 - 6) with 6. change (6 - 6) with 0. rewrite !shr by lia. change (2 ^ 18) with 262144. change (2 ^ 12) with 4096. change (2 ^ 6) with 64. change (2 ^ 0) with 1.
  rewrite (land255 (r / 262144)), !land63, Z.div_1_r.
  rewrite (Z.mod_small (r / 262144)) by lia. rewrite head4 by lia. rewrite toChar_ok by (split; lia). cbn [bind].
  rewrite !cont_byte by lia. rewrite !toChar_ok by (split; lia). cbn [bind].
  rewrite !toStr_cons by lia. reflexivity.
Qed.

Lemma encode_utf8_acc : forall rs s, Forall is_rune rs -> encode rs s = Ok (s ++ concat (map utf8 rs)).
Proof.
  induction rs as [|r rs IH]; intros s F; cbn [encode map concat].
  - rewrite app_nil_r. reflexivity.
  - inversion F; subst. rewrite encodeRune_utf8 by assumption. cbn [bind]. rewrite IH by assumption. rewrite app_assoc. reflexivity.
Qed.
Theorem encode_utf8 : forall rs, Forall is_rune rs -> encode rs [] = Ok (concat (map utf8 rs)).
Proof. intros rs F. exact (encode_utf8_acc rs [] F). Qed.

(** Runes outside 1..0x10FFFF. *)
Theorem encodeRune_other : forall r, encodeRune r = if r <? 0 then Err EOverflow else if r =? 0 then Ok [] else if 1114111 <? r then Ok errStr else Ok (utf8 r).
Proof.
  intro r. destruct (Z.ltb_spec r 0).
  { unfold encodeRune, runeSize. replace (r <=? 127) with true by lia. cbn [Z.leb Z.eqb Z.compare Pos.eqb]. unfold toChar. replace (0 <=? r) with false by lia. reflexivity. }
  destruct (Z.eqb_spec r 0) as [->|]; [reflexivity|].
  destruct (Z.ltb_spec 1114111 r).
  - unfold encodeRune, runeSize. replace (r <=? 127) with false by lia. replace (r <=? 2047) with false by lia. replace (r <=? 65535) with false by lia. replace (r <=? 1114111) with false by lia. reflexivity.
  - apply encodeRune_utf8. split; lia.
Qed.

(** ** decodeRune *)
Lemma at_skip : forall (l : list Z) (p i : Z), 0 <= p -> 0 <= i -> at_ l (p + i) = at_ (skipn (Z.to_nat p) l) i.
Proof.
  intros l p i Hp Hi. unfold at_. rewrite skipn_length.
  destruct (Z.leb_spec (Z.of_nat (length l)) (p + i)).
  - replace (Z.of_nat (length l - Z.to_nat p) <=? i) with true by lia. rewrite !orb_true_r. reflexivity.
  - replace (Z.of_nat (length l - Z.to_nat p) <=? i) with false by lia. replace (p + i <? 0) with false by lia. replace (i <? 0) with false by lia. cbn [orb].
    f_equal. rewrite <- (firstn_skipn (Z.to_nat p) l) at 1. rewrite app_nth2; rewrite firstn_length; [|lia].
    f_equal. lia.
Qed.
Lemma decodeTail_skip : forall n l p i sh v, 0 <= p <= Z.of_nat (length l) -> 0 <= i -> decodeTail n l p i sh v = decodeTail n (skipn (Z.to_nat p) l) 0 i sh v.
Proof.
  induction n as [|n IH]; intros l p i sh v Hp Hi; [reflexivity|].
  cbn [decodeTail]. rewrite Z.add_0_l, at_skip by lia. rewrite skipn_length.
  replace (Z.of_nat (length l) <=? p + i) with (Z.of_nat (length l - Z.to_nat p) <=? i) by lia.
  destruct (_ <=? _); [reflexivity|].
  destruct (at_ (skipn (Z.to_nat p) l) i) as [b| |]; [|reflexivity..]. cbn [bind].
  destruct (negb _); [reflexivity|]. apply IH; lia.
Qed.
Lemma decodeRune_skip : forall l p, 0 <= p <= Z.of_nat (length l) -> decodeRune l p = decodeRune (skipn (Z.to_nat p) l) 0.
Proof.
  intros l p Hp. unfold decodeRune. rewrite <- (Z.add_0_r p) at 1. rewrite at_skip by lia.
  destruct (at_ (skipn (Z.to_nat p) l) 0) as [h| |]; [|reflexivity..]. cbn [bind].
  destruct (Z.land h 128 =? 0); [reflexivity|].
  destruct (headerOnes 2) as [h2| |]; [|reflexivity..]. destruct (headerOnes 3) as [h3| |]; [|reflexivity..]. destruct (headerOnes 4) as [h4| |]; [|reflexivity..]. destruct (headerOnes 5) as [h5| |]; [|reflexivity..].
  cbn [bind]. match goal with |- context [if ?a then 2 else ?b] => set (size := if a then 2 else b) end. destruct (size =? 0); [reflexivity|].
  destruct (headerOnes (size + 1)); [|reflexivity..]. cbn [bind]. apply decodeTail_skip; lia.
Qed.

Lemma byte_ascii : forall b, is_byte b -> (Z.land b 128 =? 0) = (b <? 128).
Proof. intros b H. apply eqb_prop. apply (upto_all (fun b => Bool.eqb (Z.land b 128 =? 0) (b <? 128)) 256); [vm_compute; reflexivity|unfold is_byte in H; lia]. Qed.
Lemma byte_h2 : forall b, is_byte b -> (Z.land b 224 =? 192) = (192 <=? b) && (b <? 224).
Proof. intros b H. apply eqb_prop. apply (upto_all (fun b => Bool.eqb (Z.land b 224 =? 192) ((192 <=? b) && (b <? 224))) 256); [vm_compute; reflexivity|unfold is_byte in H; lia]. Qed.
Lemma byte_h3 : forall b, is_byte b -> (Z.land b 240 =? 224) = (224 <=? b) && (b <? 240).
Proof. intros b H. apply eqb_prop. apply (upto_all (fun b => Bool.eqb (Z.land b 240 =? 224) ((224 <=? b) && (b <? 240))) 256); [vm_compute; reflexivity|unfold is_byte in H; lia]. Qed.
Lemma byte_h4 : forall b, is_byte b -> (Z.land b 248 =? 240) = (240 <=? b) && (b <? 248).
Proof. intros b H. apply eqb_prop. apply (upto_all (fun b => Bool.eqb (Z.land b 248 =? 240) ((240 <=? b) && (b <? 248))) 256); [vm_compute; reflexivity|unfold is_byte in H; lia]. Qed.
Lemma byte_cont : forall b, is_byte b -> (Z.land b 192 =? 128) = cont b.
Proof. intros b H. apply eqb_prop. apply (upto_all (fun b => Bool.eqb (Z.land b 192 =? 128) (cont b)) 256); [vm_compute; reflexivity|unfold is_byte in H; lia]. Qed.
Lemma cont_val : forall b, cont b = true -> Z.land b 63 = b - 128.
Proof. intros b H. unfold cont in H. rewrite land63. lia. Qed.
Lemma low2 : forall b, 192 <= b < 224 -> Z.land b (Z.lnot 224) = b - 192.
Proof. intros b H. apply Z.eqb_eq. assert (G : forall x, 0 <= x < 32 -> (Z.land (192 + x) (Z.lnot 224) =? x) = true) by (apply (upto_all _ 32); vm_compute; reflexivity). specialize (G (b - 192) ltac:(lia)). replace (192 + (b - 192)) with b in G by lia. exact G. Qed.
Lemma low3 : forall b, 224 <= b < 240 -> Z.land b (Z.lnot 240) = b - 224.
Proof. intros b H. apply Z.eqb_eq. assert (G : forall x, 0 <= x < 16 -> (Z.land (224 + x) (Z.lnot 240) =? x) = true) by (apply (upto_all _ 16); vm_compute; reflexivity). specialize (G (b - 224) ltac:(lia)). replace (224 + (b - 224)) with b in G by lia. exact G. Qed.
Lemma low4 : forall b, 240 <= b < 248 -> Z.land b (Z.lnot 248) = b - 240.
Proof. intros b H. apply Z.eqb_eq. assert (G : forall x, 0 <= x < 8 -> (Z.land (240 + x) (Z.lnot 248) =? x) = true) by (apply (upto_all _ 8); vm_compute; reflexivity). specialize (G (b - 240) ltac:(lia)). replace (240 + (b - 240)) with b in G by lia. exact G. Qed.

Lemma tail_step : forall n l i sh v b, nth_error l (Z.to_nat i) = Some b -> is_byte b -> 0 <= i -> 0 <= sh - 6 -> v mod 2 ^ sh = 0 -> 
  decodeTail (S n) l 0 i sh v = if cont b then decodeTail n l 0 (i + 1) (sh - 6) (v + (b - 128) * 2 ^ (sh - 6)) else Ok errRune.
Proof.
  intros n l i sh v b Hb B Hi Hsh Hv. cbn [decodeTail]. rewrite Z.add_0_l.
  assert (L : (Z.to_nat i < length l)%nat) by (apply nth_error_Some; congruence).
  replace (Z.of_nat (length l) <=? i) with false by lia. unfold at_.
  replace (i <? 0) with false by lia. replace (Z.of_nat (length l) <=? i) with false by lia. cbn [orb bind].
  rewrite (nth_error_nth l (Z.to_nat i) 0 Hb). rewrite byte_cont by exact B.
  destruct (cont b) eqn:C; cbn [negb]; [|reflexivity]. rewrite cont_val by exact C. f_equal.
  rewrite Z.shiftl_mul_pow2 by lia.
  assert (E : v = v / 2 ^ sh * 2 ^ sh) by (assert (0 < 2 ^ sh) by (apply Z.pow_pos_nonneg; lia); pose proof (Z.div_mod v (2 ^ sh) ltac:(lia)); lia).
  rewrite E. rewrite lor_add; [reflexivity|lia|]. unfold cont in C.
  assert (P : 2 ^ sh = 64 * 2 ^ (sh - 6)) by (replace sh with (6 + (sh - 6)) at 1 by lia; rewrite Z.pow_add_r by lia; reflexivity).
  assert (0 < 2 ^ (sh - 6)) by (apply Z.pow_pos_nonneg; lia). rewrite P. clear - C H. nia.
Qed.
Lemma tail_short : forall n l i sh v, nth_error l (Z.to_nat i) = None -> 0 <= i -> decodeTail (S n) l 0 i sh v = Ok errRune.
Proof. intros n l i sh v H Hi. apply nth_error_None in H. cbn [decodeTail]. rewrite Z.add_0_l. replace (Z.of_nat (length l) <=? i) with true by lia. reflexivity. Qed.

Definition runeOf (o : option Z) : Z := match o with Some v => v | None => errRune end.

Lemma decodeRune0 : forall l, Forall is_byte l -> l <> [] -> decodeRune l 0 = Ok (runeOf (lenient l)).
Proof.
  intros [|b0 l] F N; [contradiction|]. inversion F as [|? ? B0 F']; subst. clear N.
  unfold decodeRune. replace (at_ (b0 :: l) 0) with (@Ok Z b0).
  2: { unfold at_. cbn [length]. replace (Z.of_nat (S (length l)) <=? 0) with false by lia. reflexivity. }
  cbn [bind]. rewrite byte_ascii by exact B0. unfold lenient.
  destruct (Z.ltb_spec b0 128); [reflexivity|].
  change (headerOnes 2) with (@Ok Z 192). change (headerOnes 3) with (@Ok Z 224). change (headerOnes 4) with (@Ok Z 240). change (headerOnes 5) with (@Ok Z 248). cbn [bind].
  rewrite byte_h2, byte_h3, byte_h4 by exact B0.
  destruct (Z.ltb_spec b0 192).
  { replace (192 <=? b0) with false by lia. replace (224 <=? b0) with false by lia. replace (240 <=? b0) with false by lia. reflexivity. }
  replace (192 <=? b0) with true by lia. cbn [andb].
  destruct (Z.ltb_spec b0 224).
  { change (2 =? 0) with false. cbv iota. change (2 + 1) with 3. change (headerOnes 3) with (@Ok Z 224). cbn [bind].
    rewrite low2 by lia. change ((2 - 1) * 6) with 6. change (Z.to_nat (2 - 1)) with 1%nat. rewrite Z.shiftl_mul_pow2 by lia.
    destruct l as [|b1 l]; [rewrite tail_short by (cbn; auto; lia); reflexivity|]. inversion F' as [|? ? B1 F1]; subst.
    rewrite (tail_step 0 _ 1 6 _ b1) by (try exact B1; try reflexivity; try lia; apply Z.mod_mul; lia).
    destruct (cont b1); [|reflexivity]. cbn [decodeTail runeOf]. f_equal. change (6 - 6) with 0. change (2 ^ 6) with 64. change (2 ^ 0) with 1. lia. }
  replace (224 <=? b0) with true by lia. cbn [andb].
  destruct (Z.ltb_spec b0 240).
  { change (3 =? 0) with false. cbv iota. change (3 + 1) with 4. change (headerOnes 4) with (@Ok Z 240). cbn [bind].
    rewrite low3 by lia. change ((3 - 1) * 6) with 12. change (Z.to_nat (3 - 1)) with 2%nat. rewrite Z.shiftl_mul_pow2 by lia.
    destruct l as [|b1 l]; [rewrite tail_short by (cbn; auto; lia); reflexivity|]. inversion F' as [|? ? B1 F1]; subst.
    rewrite (tail_step 1 _ 1 12 _ b1) by (try exact B1; try reflexivity; try lia; apply Z.mod_mul; lia).
    destruct (cont b1) eqn:C1; [|destruct l; reflexivity]. change (12 - 6) with 6. change (1 + 1) with 2.
    destruct l as [|b2 l]; [rewrite tail_short by (cbn; auto; lia); reflexivity|]. inversion F1 as [|? ? B2 F2]; subst.
    rewrite (tail_step 0 _ 2 6 _ b2); [|reflexivity|exact B2|lia|lia|change (2 ^ 6) with 64; change (2 ^ 12) with 4096; lia].
    cbn [andb]. destruct (cont b2); [|reflexivity]. cbn [decodeTail runeOf]. f_equal. change (6 - 6) with 0. change (2 ^ 12) with 4096. change (2 ^ 6) with 64. change (2 ^ 0) with 1. lia. }
  replace (240 <=? b0) with true by lia. cbn [andb].
  destruct (Z.ltb_spec b0 248); [|reflexivity].
  change (4 =? 0) with false. cbv iota. change (4 + 1) with 5. change (headerOnes 5) with (@Ok Z 248). cbn [bind].
  rewrite low4 by lia. change ((4 - 1) * 6) with 18. change (Z.to_nat (4 - 1)) with 3%nat. rewrite Z.shiftl_mul_pow2 by lia.
  destruct l as [|b1 l]; [rewrite tail_short by (cbn; auto; lia); reflexivity|]. inversion F' as [|? ? B1 F1]; subst.
  rewrite (tail_step 2 _ 1 18 _ b1) by (try exact B1; try reflexivity; try lia; apply Z.mod_mul; lia).
  destruct (cont b1) eqn:C1; [|destruct l as [|? [|? ?]]; reflexivity]. change (18 - 6) with 12. change (1 + 1) with 2.
  destruct l as [|b2 l]; [rewrite tail_short by (cbn; auto; lia); reflexivity|]. inversion F1 as [|? ? B2 F2]; subst.
  rewrite (tail_step 1 _ 2 12 _ b2); [|reflexivity|exact B2|lia|lia|change (2 ^ 12) with 4096; change (2 ^ 18) with 262144; lia].
  cbn [andb]. destruct (cont b2) eqn:C2; [|destruct l; reflexivity]. change (12 - 6) with 6. change (2 + 1) with 3.
  destruct l as [|b3 l]; [rewrite tail_short by (cbn; auto; lia); reflexivity|]. inversion F2 as [|? ? B3 F3]; subst.
  rewrite (tail_step 0 _ 3 6 _ b3); [|reflexivity|exact B3|lia|lia|change (2 ^ 6) with 64; change (2 ^ 12) with 4096; change (2 ^ 18) with 262144; lia].
  cbn [andb]. destruct (cont b3); [|reflexivity]. cbn [decodeTail runeOf]. f_equal. change (6 - 6) with 0. change (2 ^ 18) with 262144. change (2 ^ 12) with 4096. change (2 ^ 6) with 64. change (2 ^ 0) with 1. lia.
Qed.
Theorem decodeRune_lenient : forall pre post, Forall is_byte post -> post <> [] -> decodeRune (pre ++ post) (Z.of_nat (length pre)) = Ok (runeOf (lenient post)).
Proof.
  intros pre post F N. rewrite decodeRune_skip by (rewrite app_length; lia). rewrite Nat2Z.id, skipn_app, skipn_all, Nat.sub_diag. cbn [app skipn].
  apply decodeRune0; assumption.
Qed.

(** ** decode *)
Lemma utf8_lenient : forall r post, is_rune r -> lenient (utf8 r ++ post) = Some r.
Proof.
  intros r post [H1 H2]. unfold utf8.
  destruct (Z.ltb_spec r 128); [cbn [app lenient]; replace (r <? 128) with true by lia; reflexivity|].
  destruct (Z.ltb_spec r 2048).
  { cbn [app lenient]. replace (192 + r / 64 <? 128) with false by lia. replace (192 + r / 64 <? 192) with false by lia. replace (192 + r / 64 <? 224) with true by lia.
    unfold cont. replace ((128 <=? 128 + r mod 64) && (128 + r mod 64 <? 192)) with true by lia. f_equal. lia. }
  destruct (Z.ltb_spec r 65536).
  { cbn [app lenient]. replace (224 + r / 4096 <? 128) with false by lia. replace (224 + r / 4096 <? 192) with false by lia. replace (224 + r / 4096 <? 224) with false by lia. replace (224 + r / 4096 <? 240) with true by lia.
    unfold cont. replace ((128 <=? 128 + r mod 64) && (128 + r mod 64 <? 192)) with true by lia. replace ((128 <=? 128 + r / 64 mod 64) && (128 + r / 64 mod 64 <? 192)) with true by lia. cbn [andb]. f_equal. lia. }
  cbn [app lenient]. replace (240 + r / 262144 <? 128) with false by lia. replace (240 + r / 262144 <? 192) with false by lia. replace (240 + r / 262144 <? 224) with false by lia. replace (240 + r / 262144 <? 240) with false by lia. replace (240 + r / 262144 <? 248) with true by lia.
  unfold cont. replace ((128 <=? 128 + r mod 64) && (128 + r mod 64 <? 192)) with true by lia. replace ((128 <=? 128 + r / 64 mod 64) && (128 + r / 64 mod 64 <? 192)) with true by lia.
  replace ((128 <=? 128 + r / 4096 mod 64) && (128 + r / 4096 mod 64 <? 192)) with true by lia. cbn [andb]. f_equal. lia.
Qed.
Lemma utf8_bytes : forall r, is_rune r -> Forall is_byte (utf8 r).
Proof.
  intros r [H1 H2]. unfold utf8, is_byte. destruct (Z.ltb_spec r 128); [repeat constructor; lia|]. destruct (Z.ltb_spec r 2048); [repeat constructor; lia|]. destruct (Z.ltb_spec r 65536); repeat constructor; lia.
Qed.
Lemma utf8_size : forall r, is_rune r -> Z.of_nat (length (utf8 r)) = runeSize r.
Proof.
  intros r [H1 H2]. unfold utf8, runeSize. destruct (Z.ltb_spec r 128); [replace (r <=? 127) with true by lia; reflexivity|]. replace (r <=? 127) with false by lia.
  destruct (Z.ltb_spec r 2048); [replace (r <=? 2047) with true by lia; reflexivity|]. replace (r <=? 2047) with false by lia.
  destruct (Z.ltb_spec r 65536); [replace (r <=? 65535) with true by lia; reflexivity|]. replace (r <=? 65535) with false by lia.
  replace (r <=? 1114111) with true by lia. reflexivity.
Qed.
Lemma utf8_nonempty : forall r, utf8 r <> [].
Proof. intro r. unfold utf8. destruct (r <? 128), (r <? 2048), (r <? 65536); discriminate. Qed.

Lemma decodeLoop_rune : forall fuel pre post r acc, is_rune r -> r <> errRune -> Forall is_byte post ->
  decodeLoop (S fuel) (pre ++ utf8 r ++ post) (Z.of_nat (length pre)) acc = decodeLoop fuel ((pre ++ utf8 r) ++ post) (Z.of_nat (length (pre ++ utf8 r))) (acc ++ [r]).
Proof.
  intros fuel pre post r acc R NE F. cbn [decodeLoop].
  assert (L : (0 < length (utf8 r))%nat) by (pose proof (utf8_nonempty r); destruct (utf8 r); [contradiction|cbn; lia]).
  replace (Z.of_nat (length pre) <? Z.of_nat (length (pre ++ utf8 r ++ post))) with true by (rewrite !app_length; lia).
  rewrite decodeRune_lenient; [|apply Forall_app; split; [apply utf8_bytes; exact R|exact F]|].
  2: { intro E. apply app_eq_nil in E. destruct E as [E _]. exact (utf8_nonempty r E). }
  cbn [bind]. rewrite utf8_lenient by exact R. cbn [runeOf]. destruct (Z.eqb_spec r errRune); [contradiction|].
  rewrite app_length, Nat2Z.inj_add, utf8_size by exact R. rewrite <- app_assoc. reflexivity.
Qed.
Lemma decode_prefix : forall rs fuel pre rest acc, Forall is_rune rs -> ~ In errRune rs -> Forall is_byte rest ->
  decodeLoop (length rs + fuel) (pre ++ concat (map utf8 rs) ++ rest) (Z.of_nat (length pre)) acc
  = decodeLoop fuel ((pre ++ concat (map utf8 rs)) ++ rest) (Z.of_nat (length (pre ++ concat (map utf8 rs)))) (acc ++ rs).
Proof.
  induction rs as [|r rs IH]; intros fuel pre rest acc F NI B.
  - cbn [map concat length plus app]. rewrite !app_nil_r. reflexivity.
  - inversion F as [|? ? R F']; subst. cbn [map concat length plus]. rewrite <- app_assoc. rewrite decodeLoop_rune; [|exact R|intro E; apply NI; left; exact E|].
    + rewrite IH; [|exact F'|intro X; apply NI; right; exact X|exact B]. rewrite <- !app_assoc. reflexivity.
    + apply Forall_app. split; [|exact B]. apply Forall_concat. apply Forall_map. eapply Forall_impl; [|exact F']. intros a A. apply utf8_bytes. exact A.
Qed.
(** A string that starts with well-formed UTF-8 and goes on with bytes that start no sequence (or with U+FFFD). *)
Theorem decode_utf8 : forall rs rest, Forall is_rune rs -> ~ In errRune rs -> Forall is_byte rest -> lenient rest = None \/ lenient rest = Some errRune ->
  forall fuel, (length rs < fuel)%nat -> decode fuel (concat (map utf8 rs) ++ rest) = Ok rs.
Proof.
  intros rs rest F NI B BAD fuel Hf. unfold decode. replace fuel with (length rs + S (fuel - length rs - 1))%nat by lia.
  pose proof (decode_prefix rs (S (fuel - length rs - 1)) [] rest [] F NI B) as H. cbn [app length] in H. change (Z.of_nat 0) with 0 in H. rewrite H.
  cbn [decodeLoop]. rewrite app_length. destruct rest as [|b rest].
  - cbn [length]. replace (_ <? _) with false by lia. reflexivity.
  - replace (_ <? _) with true by (cbn [length]; lia). rewrite decodeRune_lenient; [|exact B|discriminate]. cbn [bind].
    replace (runeOf (lenient (b :: rest))) with errRune by (destruct BAD as [E|E]; rewrite E; reflexivity). reflexivity.
Qed.
Theorem decode_encode : forall rs s, Forall is_rune rs -> ~ In errRune rs -> encode rs [] = Ok s -> forall fuel, (length rs < fuel)%nat -> decode fuel s = Ok rs.
Proof.
  intros rs s F NI E fuel Hf. rewrite encode_utf8 in E by exact F. injection E as <-.
  pose proof (decode_utf8 rs [] F NI (Forall_nil _) (or_introl eq_refl) fuel Hf) as H. rewrite app_nil_r in H. exact H.
Qed.
(** The other direction: a string decoded to its end and in shortest form is encoded back to itself. *)
Theorem count_decode_acc : forall fuel s pos acc, countLoop fuel s pos (Z.of_nat (length acc)) = fmap (fun l => Z.of_nat (length l)) (decodeLoop fuel s pos acc).
Proof.
  induction fuel as [|fuel IH]; intros s pos acc; [reflexivity|]. cbn [countLoop decodeLoop].
  destruct (_ <? _); [|reflexivity]. destruct (decodeRune s pos) as [r| |]; [|reflexivity..]. cbn [bind].
  destruct (r =? errRune); [reflexivity|]. rewrite <- IH. f_equal. rewrite app_length. cbn [length]. lia.
Qed.
Theorem count_decode : forall fuel s, runeCount fuel s = fmap (fun l => Z.of_nat (length l)) (decode fuel s).
Proof. intros. exact (count_decode_acc fuel s 0 []). Qed.

(** Termination. *)
Lemma lenient_nonneg : forall l v, Forall is_byte l -> lenient l = Some v -> 0 <= v.
Proof.
  intros [|b0 l] v F H; [discriminate|]. inversion F as [|? ? B0 F0]; subst. unfold is_byte in B0. unfold lenient, cont in H.
  destruct (Z.ltb_spec b0 128); [injection H as <-; lia|]. destruct (Z.ltb_spec b0 192); [discriminate|].
  destruct (Z.ltb_spec b0 224).
  { destruct l as [|b1 l]; [discriminate|]. destruct (_ && _) eqn:C in H; [|discriminate]. injection H as <-. lia. }
  destruct (Z.ltb_spec b0 240).
  { destruct l as [|b1 [|b2 l]]; try discriminate. destruct (_ && _) eqn:C in H; [|discriminate]. injection H as <-. lia. }
  destruct (Z.ltb_spec b0 248); [|discriminate]. destruct l as [|b1 [|b2 [|b3 l]]]; try discriminate. destruct (_ && _) eqn:C in H; [|discriminate]. injection H as <-. lia.
Qed.
Lemma runeSize_pos : forall r, r <= 1114111 -> 1 <= runeSize r <= 4.
Proof. intros r H. unfold runeSize. destruct (r <=? 127); [lia|]. destruct (r <=? 2047); [lia|]. destruct (r <=? 65535); [lia|]. destruct (Z.leb_spec r 1114111); lia. Qed.
Lemma decodeLoop_ends : forall fuel s pos acc, Forall is_byte s -> in_unicode s -> 0 <= pos -> Z.max 0 (Z.of_nat (length s) - pos) < Z.of_nat fuel ->
  exists rs, decodeLoop fuel s pos acc = Ok (acc ++ rs) /\ (Z.of_nat (length rs) <= Z.max 0 (Z.of_nat (length s) - pos)) /\ Forall (fun r => 0 <= r <= 1114111) rs.
Proof.
  induction fuel as [|fuel IH]; intros s pos acc B U Hp Hf.
  - lia.
  - cbn [decodeLoop]. destruct (Z.ltb_spec pos (Z.of_nat (length s))) as [L|L].
    2: { exists []. rewrite app_nil_r. cbn [length]. repeat split; [lia|constructor]. }
    set (pre := firstn (Z.to_nat pos) s). set (post := skipn (Z.to_nat pos) s).
    assert (E : s = pre ++ post) by (symmetry; apply firstn_skipn).
    assert (Lp : pos = Z.of_nat (length pre)) by (unfold pre; rewrite firstn_length; lia).
    assert (NE : post <> []) by (intro X; apply (f_equal (@length Z)) in X; unfold post in X; rewrite skipn_length in X; cbn in X; lia).
    assert (Bp : Forall is_byte post) by (rewrite E in B; apply Forall_app in B; tauto).
    clearbody pre post. pose proof (decodeRune_lenient pre post Bp NE) as D. rewrite <- E, <- Lp in D. rewrite D. cbn [bind].
    destruct (runeOf (lenient post) =? errRune) eqn:Q.
    { exists []. rewrite app_nil_r. cbn [length]. repeat split; [lia|constructor]. }
    destruct (lenient post) as [v|] eqn:V; [|discriminate Q]. cbn [runeOf] in *.
    pose proof (U pre post v E V) as Hv. pose proof (lenient_nonneg post v Bp V) as Hv0. pose proof (runeSize_pos v Hv) as Hs.
    destruct (IH s (pos + runeSize v) (acc ++ [v]) B U ltac:(lia) ltac:(lia)) as (rs & H1 & H2 & H3).
    exists (v :: rs). rewrite H1, <- app_assoc. cbn [app length]. repeat split; [lia|]. constructor; [lia|exact H3].
Qed.
Theorem decode_ends : forall s fuel, Forall is_byte s -> in_unicode s -> (length s < fuel)%nat ->
  exists rs, decode fuel s = Ok rs /\ (length rs <= length s)%nat /\ Forall (fun r => 0 <= r <= 1114111) rs.
Proof.
  intros s fuel B U Hf. destruct (decodeLoop_ends fuel s 0 [] B U ltac:(lia) ltac:(lia)) as (rs & H1 & H2 & H3). exists rs. cbn [app] in H1. repeat split; [exact H1|lia|exact H3].
Qed.
(** A sequence of a code point above 0x10FFFF, at the start or after another character. *)
Lemma loop_back : forall fuel acc, decodeLoop fuel [97; 247; 191; 191; 191] 0 acc = Err EFuel /\ decodeLoop fuel [97; 247; 191; 191; 191] 1 acc = Err EFuel.
Proof.
  induction fuel as [|fuel IH]; intro acc; [split; reflexivity|]. split.
  - transitivity (decodeLoop fuel [97; 247; 191; 191; 191] 1 (acc ++ [97])); [reflexivity|]. apply IH.
  - transitivity (decodeLoop fuel [97; 247; 191; 191; 191] 0 (acc ++ [2097151])); [reflexivity|]. apply IH.
Qed.
Theorem decode_hangs : forall fuel, decode fuel [97; 247; 191; 191; 191] = Err EFuel.
Proof. intro fuel. exact (proj1 (loop_back fuel [])). Qed.

(** ** trim *)
Lemma firstBig_spec : forall s i, 0 <= i -> (firstBig s i = -1 /\ Forall blank s) \/ exists a c r, s = a ++ c :: r /\ Forall blank a /\ ~ blank c /\ firstBig s i = i + Z.of_nat (length a).
Proof.
  induction s as [|c s IH]; intros i Hi; [left; split; [reflexivity|constructor]|]. cbn [firstBig]. destruct (Z.ltb_spec 32 c).
  - right. exists [], c, s. cbn [app length]. repeat split; [constructor|unfold blank; lia|lia].
  - destruct (IH (i + 1) ltac:(lia)) as [[E F]|(a & d & r & E & F & N & L)].
    + left. split; [exact E|]. constructor; [unfold blank; lia|exact F].
    + right. exists (c :: a), d, r. subst s. cbn [app length]. repeat split; [constructor; [unfold blank; lia|exact F]|exact N|rewrite L; lia].
Qed.
Theorem ltrim_spec : forall s, trimmed_left s (ltrim s).
Proof.
  intro s. unfold ltrim. destruct (firstBig_spec s 0 ltac:(lia)) as [[E F]|(a & c & r & E & F & N & L)].
  - rewrite E. cbn. exists s. rewrite app_nil_r. auto.
  - rewrite L. replace (0 + Z.of_nat (length a) =? -1) with false by lia. exists a. unfold sliceStr. rewrite Z.add_0_l, Nat2Z.id.
    assert (Q : skipn (length a) s = c :: r) by (rewrite E, skipn_app, skipn_all, Nat.sub_diag; reflexivity).
    rewrite Q. rewrite firstn_all2 by (rewrite E, app_length; cbn [length]; lia). repeat split; [exact E|exact F|]. right. exists c, r. auto.
Qed.
Lemma lastBig_spec : forall s n, (n <= length s)%nat -> (lastBig s n = -1 /\ Forall blank (firstn n s)) \/ exists a c r, firstn n s = a ++ c :: r /\ Forall blank r /\ ~ blank c /\ lastBig s n = Z.of_nat (length a).
Proof.
  intros s. induction n as [|n IH]; intro Hn; [left; split; [reflexivity|constructor]|]. cbn [lastBig].
  assert (E : firstn (S n) s = firstn n s ++ [nth n s 0]).
  { rewrite <- (firstn_skipn n s) at 1. rewrite firstn_app, firstn_firstn, firstn_length. replace (Nat.min (S n) n) with n by lia. replace (S n - Nat.min n (length s))%nat with 1%nat by lia.
    f_equal. rewrite <- (firstn_skipn n s) at 2. rewrite app_nth2; rewrite firstn_length; [|lia]. replace (n - Nat.min n (length s))%nat with 0%nat by lia.
    destruct (skipn n s) eqn:Q; [|reflexivity]. apply (f_equal (@length Z)) in Q. rewrite skipn_length in Q. cbn in Q. lia. }
  destruct (Z.ltb_spec 32 (nth n s 0)).
  - right. exists (firstn n s), (nth n s 0), []. repeat split; [exact E|constructor|unfold blank; lia|]. rewrite firstn_length. lia.
  - destruct (IH ltac:(lia)) as [[L F]|(a & c & r & Q & F & N & L)].
    + left. split; [exact L|]. rewrite E. apply Forall_app. split; [exact F|]. constructor; [unfold blank; lia|constructor].
    + right. exists a, c, (r ++ [nth n s 0]). rewrite E, Q, <- app_assoc. repeat split; [apply Forall_app; split; [exact F|constructor; [unfold blank; lia|constructor]]|exact N|exact L].
Qed.
Theorem rtrim_spec : forall s, trimmed_right s (rtrim s).
Proof.
  intro s. unfold rtrim. destruct (lastBig_spec s (length s) ltac:(lia)) as [[E F]|(a & c & r & E & F & N & L)]; rewrite firstn_all in *.
  - rewrite E. cbn. exists s. auto.
  - rewrite L. replace (Z.of_nat (length a) =? -1) with false by lia. unfold sliceStr. cbn [Z.to_nat skipn].
    replace (Z.to_nat (Z.of_nat (length a) + 1 - 0)) with (length (a ++ [c])) by (rewrite app_length; cbn [length]; lia).
    assert (Q : s = (a ++ [c]) ++ r) by (rewrite <- app_assoc; exact E). exists r. 
    assert (G : firstn (length (a ++ [c])) s = a ++ [c]) by (rewrite Q, firstn_app, firstn_all, Nat.sub_diag; cbn [firstn]; apply app_nil_r).
    rewrite G. repeat split; [exact Q|exact F|]. right. exists a, c. auto.
Qed.
Theorem trim_spec : forall s, trimmed s (trim s).
Proof.
  intro s. unfold trim. destruct (rtrim_spec s) as (b & E & F & R). destruct (ltrim_spec (rtrim s)) as (a & E2 & F2 & L). set (t := ltrim (rtrim s)) in *. clearbody t. set (u := rtrim s) in *. clearbody u.
  exists a, b. rewrite app_assoc, <- E2. repeat split; [exact E|exact F2|exact F|].
  destruct L as [L|(c & r & L & N)]; [left; exact L|]. right. split; [exists c, r; auto|].
  destruct R as [R|(r' & c' & R & N')].
  - rewrite R, L in E2. destruct a; discriminate E2.
  - rewrite L in *. clear L. rewrite R in E2. destruct (exists_last (l := c :: r) ltac:(discriminate)) as (x & y & G). rewrite G in *. rewrite app_assoc in E2. apply app_inj_tail in E2. destruct E2 as [_ <-]. exists x, c'. auto.
Qed.
(** The result is determined by the specification. *)
Lemma trimmed_unique : forall s t u, trimmed s t -> trimmed s u -> t = u.
Proof.
  intros s t u (a & b & E & Fa & Fb & T) (a' & b' & E' & Fa' & Fb' & U). rewrite E in E'. clear E.
  assert (K : forall (t u a a' b b' : list Z), a ++ t ++ b = a' ++ u ++ b' -> Forall blank a -> Forall blank a' -> Forall blank b -> (exists c r, t = c :: r /\ ~ blank c) -> (exists c r, u = c :: r /\ ~ blank c) -> a = a').
  { clear. intros t u a a' b b' E Fa Fa' _ (c & r & -> & N) (c' & r' & -> & N'). revert a' E Fa'.
    induction a as [|x a IH]; intros [|y a'] E Fa'; cbn [app] in E; [reflexivity| | |].
    - injection E as E1 E. inversion Fa'; subst. contradiction.
    - injection E as E1 E. inversion Fa; subst. contradiction.
    - injection E as -> E. f_equal. inversion Fa; inversion Fa'; subst. apply IH; assumption. }
  destruct T as [-> | [Ta Tb]], U as [-> | [Ua Ub]]; [reflexivity| | |].
  - exfalso. destruct Ua as (c & r & -> & N). apply N. assert (G : Forall blank (a ++ [] ++ b)) by (apply Forall_app; split; [exact Fa|exact Fb]). rewrite E' in G. apply Forall_app in G. destruct G as [_ G]. inversion G; assumption.
  - exfalso. destruct Ta as (c & r & -> & N). apply N. assert (G : Forall blank (a' ++ [] ++ b')) by (apply Forall_app; split; [exact Fa'|exact Fb']). rewrite <- E' in G. apply Forall_app in G. destruct G as [_ G]. inversion G; assumption.
  - assert (a = a') as <- by (eapply (K t u a a' b b'); eassumption). apply app_inv_head in E'.
    destruct Tb as (r & c & -> & N), Ub as (r' & c' & -> & N').
    assert (G : rev b = rev b').
    { apply (f_equal (@rev Z)) in E'. rewrite !rev_app_distr in E'. cbn [rev app] in E'.
      eapply (K (c :: rev r) (c' :: rev r') (rev b) (rev b') [] []); [rewrite !app_nil_r; exact E'|apply Forall_rev; exact Fb|apply Forall_rev; exact Fb'|constructor|exists c, (rev r); auto|exists c', (rev r'); auto]. }
    apply (f_equal (@rev Z)) in G. rewrite !rev_involutive in G. subst b'. apply app_inv_tail in E'. exact E'.
Qed.
Theorem trim_idempotent : forall s, trim (trim s) = trim s.
Proof.
  intro s. apply (trimmed_unique (trim s)); [apply trim_spec|]. exists [], []. cbn [app]. rewrite app_nil_r. repeat split; [constructor..|].
  destruct (trim_spec s) as (a & b & _ & _ & _ & H). exact H.
Qed.

(** ** fnc *)
Section Fnc.
Context {S A : Type} (arr : S -> list A).
Lemma nth_error_split_at : forall (pre : list A) x post, nth_error (pre ++ x :: post) (length pre) = Some x.
Proof. intros. rewrite nth_error_app2 by lia. rewrite Nat.sub_diag. reflexivity. Qed.
Lemma transform_loop : forall (B : Type) (f : A -> S -> outcome (B * S)) (zero : B), (forall x s p, f x s = Ok p -> arr (snd p) = arr s) ->
  forall post pre done s fuel, arr s = pre ++ post -> length done = length pre -> (length post < fuel)%nat ->
  transformLoop S A B arr fuel f (length pre) (done ++ repeat zero (length post)) s = fmap (fun q => (done ++ fst q, snd q)) (map_in_order f post s).
Proof.
  intros B f zero K. induction post as [|x post IH]; intros pre done s fuel Ha Hd Hf; destruct fuel as [|fuel]; try (cbn in Hf; lia); cbn [transformLoop map_in_order length repeat].
  - rewrite Ha, app_nil_r, Nat.ltb_irrefl. reflexivity.
  - rewrite Ha, app_length. cbn [length]. replace (Nat.ltb (length pre) (length pre + Datatypes.S (length post))) with true by (symmetry; apply Nat.ltb_lt; lia).
    replace (Nat.ltb (length pre) (length (done ++ zero :: repeat zero (length post)))) with true by (symmetry; apply Nat.ltb_lt; rewrite app_length; cbn [length]; lia).
    unfold item. rewrite Ha, nth_error_split_at. cbn [bind]. destruct (f x s) as [p| |] eqn:Fx; [|reflexivity..]. cbn [bind].
    rewrite <- Hd at 2 3. rewrite firstn_app, firstn_all, Nat.sub_diag. cbn [firstn]. rewrite app_nil_r.
    rewrite skipn_app. rewrite skipn_all2 by lia. replace (length done + 1 - length done)%nat with 1%nat by lia. cbn [skipn app].
    replace (length pre + 1)%nat with (length (pre ++ [x])) by (rewrite app_length; reflexivity).
    replace (done ++ fst p :: repeat zero (length post)) with ((done ++ [fst p]) ++ repeat zero (length post)) by (rewrite <- app_assoc; reflexivity).
    rewrite IH; [|rewrite (K _ _ _ Fx), Ha, <- app_assoc; reflexivity|rewrite !app_length; cbn [length]; lia|cbn [length] in Hf; lia].
    destruct (map_in_order f post (snd p)) as [q| |]; [|reflexivity..]. cbn [fmap bind fst snd]. rewrite <- app_assoc. reflexivity.
Qed.
Theorem transform_spec : forall (B : Type) (f : A -> S -> outcome (B * S)) (zero : B), (forall x s p, f x s = Ok p -> arr (snd p) = arr s) ->
  forall s fuel, (length (arr s) < fuel)%nat -> transform S A B arr fuel zero f s = map_in_order f (arr s) s.
Proof.
  intros B f zero K s fuel Hf. unfold transform. pose proof (transform_loop B f zero K (arr s) [] [] s fuel eq_refl eq_refl Hf) as H. cbn [length app] in H. rewrite H.
  destruct (map_in_order f (arr s) s) as [[q1 q2]| |]; reflexivity.
Qed.
Lemma filter_loop : forall (f : A -> S -> outcome (bool * S)), (forall x s p, f x s = Ok p -> arr (snd p) = arr s) ->
  forall post pre res s fuel, arr s = pre ++ post -> (length post < fuel)%nat ->
  filterLoop S A arr fuel f (length pre) res s = fmap (fun q => (res ++ keep post (fst q), snd q)) (map_in_order f post s).
Proof.
  intros f K. induction post as [|x post IH]; intros pre res s fuel Ha Hf; destruct fuel as [|fuel]; try (cbn in Hf; lia); cbn [filterLoop map_in_order length].
  - rewrite Ha, app_nil_r, Nat.ltb_irrefl. cbn [fmap bind fst snd keep]. rewrite app_nil_r. reflexivity.
  - rewrite Ha, app_length. cbn [length]. replace (Nat.ltb (length pre) (length pre + Datatypes.S (length post))) with true by (symmetry; apply Nat.ltb_lt; lia).
    unfold item at 1. rewrite Ha, nth_error_split_at. cbn [bind]. destruct (f x s) as [p| |] eqn:Fx; [|reflexivity..]. cbn [bind].
    replace (length pre + 1)%nat with (length (pre ++ [x])) by (rewrite app_length; reflexivity).
    assert (Ha' : arr (snd p) = (pre ++ [x]) ++ post) by (rewrite (K _ _ _ Fx), Ha, <- app_assoc; reflexivity).
    destruct (fst p) eqn:Fp.
    + unfold item. rewrite (K _ _ _ Fx), Ha, nth_error_split_at. cbn [bind]. rewrite IH; [|exact Ha'|cbn [length] in Hf; lia].
      destruct (map_in_order f post (snd p)) as [q| |]; [|reflexivity..]. cbn [fmap bind fst snd keep]. rewrite <- app_assoc. reflexivity.
    + rewrite IH; [|exact Ha'|cbn [length] in Hf; lia]. destruct (map_in_order f post (snd p)) as [q| |]; reflexivity.
Qed.
Theorem filter_spec : forall (f : A -> S -> outcome (bool * S)), (forall x s p, f x s = Ok p -> arr (snd p) = arr s) ->
  forall s fuel, (length (arr s) < fuel)%nat -> filter_ S A arr fuel f s = fmap (fun q => (keep (arr s) (fst q), snd q)) (map_in_order f (arr s) s).
Proof. intros f K s fuel Hf. unfold filter_. exact (filter_loop f K (arr s) [] [] s fuel eq_refl Hf). Qed.
Lemma reduce_loop : forall (f : A -> A -> S -> outcome (A * S)), (forall x y s p, f x y s = Ok p -> arr (snd p) = arr s) ->
  forall post pre acc s fuel, arr s = pre ++ post -> (length post < fuel)%nat -> reduceLoop S A arr fuel f (length pre) acc s = fold_in_order f post acc s.
Proof.
  intros f K. induction post as [|x post IH]; intros pre acc s fuel Ha Hf; destruct fuel as [|fuel]; try (cbn in Hf; lia); cbn [reduceLoop fold_in_order length].
  - rewrite Ha, app_nil_r, Nat.ltb_irrefl. reflexivity.
  - rewrite Ha, app_length. cbn [length]. replace (Nat.ltb (length pre) (length pre + Datatypes.S (length post))) with true by (symmetry; apply Nat.ltb_lt; lia).
    unfold item. rewrite Ha, nth_error_split_at. cbn [bind]. destruct (f acc x s) as [p| |] eqn:Fx; [|reflexivity..]. cbn [bind].
    replace (length pre + 1)%nat with (length (pre ++ [x])) by (rewrite app_length; reflexivity).
    apply IH; [rewrite (K _ _ _ _ Fx), Ha, <- app_assoc; reflexivity|cbn [length] in Hf; lia].
Qed.
Theorem reduce_spec : forall (f : A -> A -> S -> outcome (A * S)), (forall x y s p, f x y s = Ok p -> arr (snd p) = arr s) ->
  forall s fuel, (length (arr s) < fuel)%nat -> reduce S A arr fuel f s = match arr s with [] => Err EIndex | x :: l => fold_in_order f l x s end.
Proof.
  intros f K s fuel Hf. unfold reduce, item. destruct (arr s) as [|x l] eqn:Ha; [reflexivity|]. cbn [nth_error bind].
  change 1%nat with (length [x]). apply reduce_loop; [exact K|rewrite Ha; reflexivity|cbn [length] in Hf; lia].
Qed.
End Fnc.

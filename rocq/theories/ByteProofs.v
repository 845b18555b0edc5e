From Coq Require Import ZArith Lia Bool List ZifyBool.
Import ListNotations.
From Verif Require Import Base BlkModel DynModel FileModel FileSpec FileProofs ByteModel.
Local Open Scope Z_scope.

Definition in32 (z : Z) : Prop := INT_MIN <= z <= INT_MAX.

(** A struct tm as the C library makes it, far enough from the largest year. *)
Definition proper (t : tm) : Prop :=
  in32 (tm_sec t) /\ in32 (tm_min t) /\ in32 (tm_hour t) /\ in32 (tm_mday t) /\ 0 <= tm_mon t <= 11 /\ INT_MIN <= tm_year t <= INT_MAX - 1900
  /\ 0 <= tm_wday t <= 6 /\ 0 <= tm_yday t <= 365 /\ (tm_isdst t = 0 \/ tm_isdst t = 1).

(** A DateTime whose fields, in the C library's numbering, are ints. *)
Definition fits (d : datetime) : Prop :=
  in32 (second d) /\ in32 (minute d) /\ in32 (hour d) /\ in32 (day d) /\ in32 (month d - 1) /\ in32 (year d - 1900)
  /\ in32 (dayOfWeek d - 1) /\ in32 (dayOfYear d - 1).

Lemma memcpy_ok : forall d l, size_ok l -> length d = length l -> rtlmemcpy d l (Z.of_nat (length l)) = Ok l.
Proof.
  intros d l S E. unfold rtlmemcpy. unfold size_ok in S. rewrite s32_id by (unfold INT_MAX, two31 in *; lia). unfold toSize. replace (Z.of_nat (length l) <? 0) with false by lia.
  rewrite E. rewrite Z.ltb_irrefl. cbn [orb]. rewrite Nat2Z.id, firstn_all, <- E, skipn_all, app_nil_r. reflexivity.
Qed.

Lemma tobytes_ok : forall p l, l <> [] -> Z.of_nat (length l) <= 2147483392 -> tobytes (Some (p, l)) = Ok l.
Proof.
  intros p l N L. unfold tobytes. rewrite makeChars_ok by lia. cbn [bind]. rewrite Nat2Z.id.
  assert (E : first (repeat 0 (length l)) = Ok (repeat 0 (length l))) by (destruct l; [congruence | reflexivity]). rewrite E. cbn [bind].
  apply memcpy_ok; [unfold size_ok, INT_MAX, two31; lia | apply repeat_length].
Qed.

Lemma frombytes_ok : forall p l bytes, bytes <> [] -> size_ok bytes ->
  frombytes (Some (p, l)) bytes =
    Ok (if (length l =? length bytes)%nat then if p then (Some (p, l), 3) else (Some (p, bytes), 0) else (Some (p, l), 2)).
Proof.
  intros p l bytes N S. unfold frombytes. destruct (Nat.eqb_spec (length l) (length bytes)) as [E | E].
  - rewrite E, Z.eqb_refl. cbn [negb]. destruct p; [reflexivity|]. assert (F : first bytes = Ok bytes) by (destruct bytes; [congruence | reflexivity]). rewrite F. cbn [bind].
    rewrite memcpy_ok by auto. reflexivity.
  - replace (Z.of_nat (length l) =? Z.of_nat (length bytes)) with false by lia. reflexivity.
Qed.

Lemma chk64_ok : forall z, INT64_MIN <= z <= INT64_MAX -> chk64 z = Ok z.
Proof. intros z H. unfold chk64, in_s64b. replace ((INT64_MIN <=? z) && (z <=? INT64_MAX)) with true by lia. reflexivity. Qed.
Lemma s32_in : forall z, in32 z -> s32 z = z.
Proof. intros z H. apply s32_id. unfold in32, INT_MIN in H. lia. Qed.
Lemma add32_ok : forall a b, in32 (a + b) -> add32 a b = Ok (a + b).
Proof. intros a b H. unfold add32. unfold in32 in H. replace ((INT_MIN <=? a + b) && (a + b <=? INT_MAX)) with true by lia. reflexivity. Qed.

Lemma tm_roundtrip : forall t, proper t -> exists d, rtlConvToDateTime t = Ok d /\ rtlConvFromDateTime d = Ok t
  /\ 1 <= month d <= 12 /\ year d = tm_year t + 1900 /\ 1 <= dayOfWeek d <= 7 /\ 1 <= dayOfYear d <= 366 /\ isDST d = (tm_isdst t =? 1).
Proof.
  intros t (A & B & C & D & E & F & G & H & I). unfold rtlConvToDateTime. unfold in32 in *.
  assert (X : forall z, 0 <= z <= 366 -> in32 (z + 1)) by (intros; unfold in32, INT_MIN, INT_MAX, two31; lia).
  rewrite !add32_ok; try (apply X; lia); try (unfold in32, INT_MIN, INT_MAX, two31 in *; lia). cbn [bind]. eexists. split; [reflexivity|].
  split; [|cbn [month year dayOfWeek dayOfYear isDST]; repeat split; try lia; destruct I as [-> | ->]; reflexivity].
  unfold rtlConvFromDateTime. cbn [second minute hour day month year dayOfWeek dayOfYear isDST].
  replace (tm_mon t + 1 - 1) with (tm_mon t) by lia. replace (tm_year t + 1900 - 1900) with (tm_year t) by lia. replace (tm_wday t + 1 - 1) with (tm_wday t) by lia. replace (tm_yday t + 1 - 1) with (tm_yday t) by lia.
  rewrite !chk64_ok by (unfold INT64_MIN, INT64_MAX, two63, INT_MIN, INT_MAX, two31 in *; lia). cbn [bind].
  rewrite !s32_in by (unfold in32, INT_MIN, INT_MAX, two31 in *; lia). replace (if negb (tm_isdst t =? 0) then 1 else 0) with (tm_isdst t) by (destruct I as [-> | ->]; reflexivity). destruct t; reflexivity.
Qed.

Lemma dt_roundtrip : forall d, fits d -> in32 (month d) -> in32 (year d) -> in32 (dayOfWeek d) -> in32 (dayOfYear d) ->
  exists t, rtlConvFromDateTime d = Ok t /\ rtlConvToDateTime t = Ok d.
Proof.
  intros d (A & B & C & D & E & F & G & H) M Y W V. unfold rtlConvFromDateTime.
  rewrite !chk64_ok by (unfold in32, INT64_MIN, INT64_MAX, two63, INT_MIN, INT_MAX, two31 in *; lia). cbn [bind]. rewrite !s32_in by auto. eexists. split; [reflexivity|].
  unfold rtlConvToDateTime. cbn [tm_sec tm_min tm_hour tm_mday tm_mon tm_year tm_wday tm_yday tm_isdst].
  assert (X : forall x y, in32 x -> in32 (x - y + y)) by (intros x y Q; unfold in32 in *; lia).
  rewrite !add32_ok by auto. cbn [bind]. rewrite !Z.sub_add. destruct d as [? ? ? ? ? ? ? ? []]; reflexivity.
Qed.

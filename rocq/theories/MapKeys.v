(** The order hypotheses of the map theorems hold for the keys a program can use, by the results on comparison (C06),
    and concrete witnesses. *)
From Coq Require Import ZArith Lia Bool List.
From Verif Require Import Base NumModel NumSpec MemModel CmpModel CmpSpec CmpOrder MapModel MapSpec MapExtra.
Import ListNotations.
Local Open Scope Z_scope.

(** A key: the slot holding it and its content. *)
Definition kslot : Type := (Z * cval)%type.
Definition kord (a b : kslot) : comparison := match vcmp (snd a) (snd b) with Some c => c | None => Eq end.
Definition kcmp (fuel : nat) (w : amode) (tt : tytab) (m : mem) (ty : Z) (a b : kslot) : outcome Z :=
  doCompare fuel w tt m (fst a) (fst b) ty.

Definition usable (tt : tytab) (m : mem) (ty : Z) (k : kslot) : Prop := reads tt m ty (fst k) (snd k) /\ moderate (snd k).

Lemma usable_some tt m ty a b : usable tt m ty a -> usable tt m ty b -> vcmp (snd a) (snd b) = Some (kord a b).
Proof.
  intros [Ra Ma] [Rb Mb]. destruct (compare_order tt m ty _ _ _ _ Ra Rb (moderate_close _ _ Ma Mb)) as (n & d & c & H & _).
  unfold kord. now rewrite H.
Qed.

Lemma keys_order tt m ty : total_order kord (usable tt m ty).
Proof.
  destruct order_laws as (AS & TR & EQ & _). split; [|split; [|split]].
  - intros x Hx. pose proof (usable_some tt m ty x x Hx Hx) as S. specialize (AS (snd x) (snd x)). rewrite S in AS.
    cbn in AS. injection AS as AS. destruct (kord x x); cbn in AS; congruence.
  - intros x y Hx Hy. pose proof (usable_some tt m ty x y Hx Hy) as S. pose proof (usable_some tt m ty y x Hy Hx) as S'.
    specialize (AS (snd x) (snd y)). rewrite S, S' in AS. cbn in AS. now injection AS.
  - intros x y z Hx Hy Hz H1 H2. pose proof (usable_some tt m ty x y Hx Hy) as S1. pose proof (usable_some tt m ty y z Hy Hz) as S2.
    pose proof (usable_some tt m ty x z Hx Hz) as S3. rewrite H1 in S1. rewrite H2 in S2. rewrite (TR _ _ _ S1 S2) in S3. now injection S3.
  - intros x y z Hx Hy Hz H1. pose proof (usable_some tt m ty x y Hx Hy) as S1. pose proof (usable_some tt m ty y z Hy Hz) as S2.
    pose proof (usable_some tt m ty x z Hx Hz) as S3. rewrite H1 in S1. rewrite (EQ _ _ _ S1) in S3. rewrite S2 in S3. now injection S3.
Qed.

Lemma total_order_sub {K} (ord : K -> K -> comparison) (P Q : K -> Prop) :
  (forall x, Q x -> P x) -> total_order ord P -> total_order ord Q.
Proof. intros H (A & B & C & D). repeat split; eauto. Qed.

Lemma one_fuel tt m ty a : usable tt m ty a -> forall ks, Forall (usable tt m ty) ks ->
  exists n, forall fuel w, (n <= fuel)%nat -> forall b, In b ks -> exists d, kcmp fuel w tt m ty a b = Ok d /\ (d ?= 0) = kord a b.
Proof.
  intros Ha. induction ks as [|b ks IH]; intro F; [exists O; intros ? ? ? ? []|].
  inversion F as [|? ? Hb Fk]; subst. destruct (IH Fk) as (n & Hn).
  destruct Ha as [Ra Ma]. destruct Hb as [Rb Mb].
  destruct (compare_order tt m ty _ _ _ _ Ra Rb (moderate_close _ _ Ma Mb)) as (n' & d & c & V & S & H).
  exists (max n n'). intros fuel w Hf b' [<-|Hin]; [|apply Hn; [lia | exact Hin]].
  exists d. split; [apply H; lia|]. unfold kord. rewrite V. exact S.
Qed.

Lemma keys_decided tt m ty : forall ks, Forall (usable tt m ty) ks ->
  exists n, forall fuel w, (n <= fuel)%nat -> decides kord (fun k => In k ks) (kcmp fuel w tt m ty).
Proof.
  intros ks F.
  assert (X : forall l, (forall x, In x l -> In x ks) -> exists n, forall fuel w, (n <= fuel)%nat -> forall a b, In a l -> In b ks ->
     exists d, kcmp fuel w tt m ty a b = Ok d /\ (d ?= 0) = kord a b).
  { induction l as [|a l IH]; intro HS; [exists O; intros ? ? ? ? ? []|].
    destruct IH as (n & Hn); [intros; apply HS; now right|].
    assert (Ha : usable tt m ty a) by (rewrite Forall_forall in F; apply F, HS; now left).
    destruct (one_fuel tt m ty a Ha ks F) as (n' & Hn').
    exists (max n n'). intros fuel w Hf x b [<-|Hx] Hb; [apply Hn'; [lia | exact Hb] | apply Hn; [lia | exact Hx | exact Hb]]. }
  destruct (X ks (fun x H => H)) as (n & Hn). exists n. intros fuel w Hf x y Hx Hy. exact (Hn fuel w Hf x y Hx Hy).
Qed.

Lemma map_of_program tt m ty (V : Type) (v0 : V) : forall ks ops h, Forall (usable tt m ty) ks ->
  Forall (op_keys (fun k => In k ks)) ops -> 0 < next h ->
  exists n, forall cfuel w fuel, (n <= cfuel)%nat -> (fuel_for (length ops) <= fuel)%nat ->
    fmap snd (run v0 (kcmp cfuel w tt m ty) fuel h 0 ops) = fmap snd (s_run v0 kord None ops).
Proof.
  intros ks ops h F HP N. destruct (keys_decided tt m ty ks F) as (n & Hn).
  exists n. intros cfuel w fuel Hc Hf. eapply run_refines; eauto.
  eapply total_order_sub; [|apply (keys_order tt m ty)]. rewrite Forall_forall in F. exact F.
Qed.

(** ** Concrete runs *)
Definition h0 : heap Z Z := MkHeap (fun _ => None) 1.
(** int keys within (-2^62, 2^62). *)
Definition icmp (x y : Z) : outcome Z := isub Strict x y.
Definition iok (x : Z) : Prop := - 2 ^ 62 < x < 2 ^ 62.
Lemma int_order : total_order Z.compare iok.
Proof.
  repeat split; intros.
  - apply Z.compare_refl.
  - apply Z.compare_antisym.
  - rewrite Z.compare_lt_iff in *. lia.
  - apply Z.compare_eq in H2. now subst.
Qed.
Lemma int_decides : decides Z.compare iok icmp.
Proof.
  intros x y [A B] [C D]. exists (x - y). unfold icmp, isub. change (2 ^ 62) with 4611686018427387904 in *.
  split.
  - unfold chk64, in_s64b, INT64_MIN, INT64_MAX, two63. rewrite (proj2 (Z.leb_le _ _)) by lia. rewrite (proj2 (Z.leb_le _ _)) by lia. reflexivity.
  - destruct (Z.compare_spec x y); [subst; rewrite Z.sub_diag; reflexivity | apply Z.compare_lt_iff; lia | apply Z.compare_gt_iff; lia].
Qed.

Definition demo : list (op Z Z) :=
  [OSet 5 50 3; OSet 2 20 9; OSet 8 80 7; OGet 2 0; OGet 7 4; OLen; OKeys; ODelete 5; OValidKey 5; OValidKey 8; OKeys; OGet 8 0].
Lemma demo_ok : Forall (op_keys iok) demo.
Proof. unfold iok. repeat constructor; cbn. Qed.
Lemma demo_run : fmap snd (run 0 icmp 200 h0 0 demo) =
  Ok [RUnit; RUnit; RUnit; RVal 20; RVal 0; RInt 4; RKeys [2; 5; 7; 8]; RUnit; RBool false; RBool true; RKeys [2; 7; 8]; RVal 80].
Proof. vm_compute. reflexivity. Qed.
Lemma demo_spec : s_run 0 Z.compare None demo =
  Ok (Some [(2, 20); (7, 0); (8, 80)],
      [RUnit; RUnit; RUnit; RVal 20; RVal 0; RInt 4; RKeys [2; 5; 7; 8]; RUnit; RBool false; RBool true; RKeys [2; 7; 8]; RVal 80]).
Proof. vm_compute. reflexivity. Qed.

Lemma demo_keys : match run 0 icmp 200 h0 0 demo with Ok (h', root', _) => doBuiltinKeys 200 h' root' | _ => UB end = Ok [2; 7; 8].
Proof. vm_compute. reflexivity. Qed.

Definition demo2 : list (bool * op Z Z) :=
  [(true, ODelete 7); (false, OSet 7 71 5); (true, OKeys); (false, OGet 7 0); (true, OValidKey 7); (false, OLen); (true, OLen)].
Lemma demo_copy : match run 0 icmp 200 h0 0 demo with
  | Ok (h1, root, _) => match doBuiltinCopyMap 200 h1 root with
      | Ok (h2, root2) => run2 0 icmp 200 h2 root root2 demo2
      | _ => UB end
  | _ => UB end = Ok [RUnit; RUnit; RKeys [2; 8]; RVal 71; RBool false; RInt 3; RInt 2].
Proof. vm_compute. reflexivity. Qed.

(** int keys more than 2^63 apart: a stored key is lost after another key is looked up (two's complement wraparound;
    with the arithmetic as ISO C defines it the comparison is undefined). *)
Definition far : list (op Z Z) := [OSet INT64_MIN 1 5; OSet 0 2 9; OGet 0 0; OValidKey INT64_MIN].
Lemma far_lost :
  fmap snd (run 0 (isub Wrapping) 100 h0 0 far) = Ok [RUnit; RUnit; RVal 2; RBool false] /\
  fmap snd (s_run 0 Z.compare None far) = Ok [RUnit; RUnit; RVal 2; RBool true] /\
  run 0 (isub Strict) 100 h0 0 far = UB.
Proof. vm_compute. repeat split; reflexivity. Qed.
Lemma far_witness :
  exists ops : list (op Z Z),
    (exists x, ops = x ++ [OValidKey INT64_MIN] /\ In (OSet INT64_MIN 1 5) x /\ ~ In (ODelete INT64_MIN) x) /\
    fmap snd (run 0 (isub Wrapping) 100 h0 0 ops) = Ok [RUnit; RUnit; RVal 2; RBool false] /\
    fmap snd (s_run 0 Z.compare None ops) = Ok [RUnit; RUnit; RVal 2; RBool true] /\
    run 0 (isub Strict) 100 h0 0 ops = UB.
Proof.
  exists far. split; [|exact far_lost]. exists [OSet INT64_MIN 1 5; OSet 0 2 9; OGet 0 0].
  split; [reflexivity|]. split; [now left|]. intro H. cbn in H. intuition discriminate.
Qed.

(** The period of the random number generator. The step T is a linear map over GF(2) with the characteristic polynomial [charpoly]; powers of T are
    computed as polynomials modulo [charpoly], written as numbers whose bits are the coefficients. *)
From Coq Require Import ZArith NArith Lia Bool List Znumtheory.
From Verif Require Import Base LibModel.
Import ListNotations.
Local Open Scope N_scope.

(** The linear map that sends bit i to the i-th item. *)
Fixpoint app (M : list N) (v : N) : N := match M with [] => 0 | c :: r => N.lxor (if N.odd v then c else 0) (app r (N.div2 v)) end.
Fixpoint cols (f : N -> N) (n : nat) : list N := match n with O => [] | S n => f 1 :: cols (fun x => f (2 * x)) n end.
Definition linear (f : N -> N) : Prop := forall a b, f (N.lxor a b) = N.lxor (f a) (f b).

Lemma lxor_cancel : forall a b c d, N.lxor (N.lxor a b) (N.lxor c d) = N.lxor (N.lxor a c) (N.lxor b d).
Proof. intros. apply N.bits_inj. intro n. rewrite !N.lxor_spec. destruct (N.testbit a n), (N.testbit b n), (N.testbit c n), (N.testbit d n); reflexivity. Qed.
Lemma odd_lxor : forall a b, N.odd (N.lxor a b) = xorb (N.odd a) (N.odd b).
Proof. intros. rewrite <- !N.bit0_odd. apply N.lxor_spec. Qed.
Lemma div2_lxor : forall a b, N.div2 (N.lxor a b) = N.lxor (N.div2 a) (N.div2 b).
Proof. intros. rewrite !N.div2_spec. apply N.shiftr_lxor. Qed.
Lemma app_linear : forall M, linear (app M).
Proof.
  induction M as [|c M IH]; intros a b; [reflexivity|]. cbn [app]. rewrite odd_lxor, div2_lxor, IH.
  destruct (N.odd a), (N.odd b); cbn [xorb].
  - rewrite lxor_cancel, N.lxor_nilpotent. reflexivity.
  - rewrite lxor_cancel, N.lxor_0_r. reflexivity.
  - rewrite lxor_cancel, N.lxor_0_l. reflexivity.
  - rewrite lxor_cancel. reflexivity.
Qed.
Lemma linear_0 : forall f, linear f -> f 0 = 0.
Proof. intros f L. pose proof (L 0 0) as H. rewrite N.lxor_0_r in H. rewrite H. apply N.lxor_nilpotent. Qed.
Lemma bit_split : forall v, v = N.lxor (if N.odd v then 1 else 0) (2 * N.div2 v).
Proof.
  intro v. destruct v as [|[p|p|]]; reflexivity.
Qed.
Lemma double_lxor : forall a b, 2 * N.lxor a b = N.lxor (2 * a) (2 * b).
Proof. intros a b. pose proof (N.shiftl_lxor a b 1) as H. rewrite !N.shiftl_mul_pow2 in H. change (2 ^ 1) with 2 in H. rewrite !(N.mul_comm _ 2) in H. exact H. Qed.
Lemma cols_app : forall n f v, linear f -> v < 2 ^ N.of_nat n -> app (cols f n) v = f v.
Proof.
  induction n as [|n IH]; intros f v L Hv.
  - cbn in Hv. replace v with 0 by lia. rewrite (linear_0 f) by exact L. reflexivity.
  - cbn [cols app]. rewrite IH.
    + rewrite (bit_split v) at 3. rewrite L. f_equal. destruct (N.odd v); [reflexivity|]. symmetry. apply linear_0. exact L.
    + intros a b. rewrite <- L. f_equal. apply double_lxor.
    + rewrite Nnat.Nat2N.inj_succ, N.pow_succ_r' in Hv. rewrite N.div2_div. apply N.div_lt_upper_bound; lia.
Qed.
(** ** The step *)
Lemma land_lxor : forall a b c, N.land (N.lxor a b) c = N.lxor (N.land a c) (N.land b c).
Proof. intros. apply N.bits_inj. intro n. rewrite !N.land_spec, !N.lxor_spec, !N.land_spec. destruct (N.testbit a n), (N.testbit b n), (N.testbit c n); reflexivity. Qed.
Lemma modU : forall a, a mod U64 = N.land a (N.ones 64).
Proof. intro a. symmetry. apply N.land_ones. Qed.
Lemma shl_linear : forall k, linear (fun s => N.lxor s (N.shiftl s k mod U64)).
Proof. intros k a b. cbv beta. rewrite !modU, N.shiftl_lxor, land_lxor. apply lxor_cancel. Qed.
Lemma shr_linear : forall k, linear (fun s => N.lxor s (N.shiftr s k)).
Proof. intros k a b. cbv beta. rewrite N.shiftr_lxor. apply lxor_cancel. Qed.
Lemma step_linear : linear randStep.
Proof.
  intros a b. unfold randStep. pose proof (shl_linear 13 a b) as H1. cbv beta in H1. rewrite H1.
  rewrite (shr_linear 7 (N.lxor a (N.shiftl a 13 mod U64)) (N.lxor b (N.shiftl b 13 mod U64))).
  exact (shl_linear 17 _ _).
Qed.
Lemma lxor_lt : forall a b, a < U64 -> b < U64 -> N.lxor a b < U64.
Proof.
  intros a b Ha Hb. assert (E : N.lxor a b = N.lxor a b mod U64); [|rewrite E; apply N.mod_lt; discriminate].
  rewrite modU, land_lxor, <- !modU, !N.mod_small by assumption. reflexivity.
Qed.
Lemma step_lt : forall s, s < U64 -> randStep s < U64.
Proof.
  intros s H. unfold randStep.
  assert (M : forall x, x mod U64 < U64) by (intro; apply N.mod_lt; discriminate).
  assert (S : forall x k, x < U64 -> N.shiftr x k < U64). { intros x k Hx. rewrite N.shiftr_div_pow2. apply N.le_lt_trans with x; [|exact Hx]. apply N.div_le_upper_bound; [apply N.pow_nonzero; discriminate|]. pose proof (N.pow_nonzero 2 k). nia. }
  repeat (apply lxor_lt || apply M || apply S || exact H).
Qed.

(** ** Polynomials in T *)
Fixpoint evp (p : positive) (v : N) : N := match p with xH => v | xO p => randStep (evp p v) | xI p => N.lxor v (randStep (evp p v)) end.
Definition ev (q v : N) : N := match q with 0 => 0 | Npos p => evp p v end.
Lemma evp_linear : forall p, linear (evp p).
Proof.
  induction p as [p IH|p IH|]; intros a b; cbn [evp]; [|rewrite IH; apply step_linear|reflexivity]. rewrite IH, step_linear. apply lxor_cancel.
Qed.
Lemma ev_linear : forall q, linear (ev q).
Proof. intros [|p]; [intros a b; reflexivity|apply evp_linear]. Qed.
Lemma ev_double : forall q v, ev (2 * q) v = randStep (ev q v).
Proof. intros [|p] v; reflexivity. Qed.
Lemma ev_bit : forall q v, ev q v = N.lxor (if N.odd q then v else 0) (randStep (ev (N.div2 q) v)).
Proof. intros [|[p|p|]] v; try reflexivity. cbn [N.odd N.div2 ev evp]. symmetry. apply N.lxor_0_r. Qed.
Lemma ev_lxor_n : forall n q r v, q < 2 ^ N.of_nat n -> r < 2 ^ N.of_nat n -> ev (N.lxor q r) v = N.lxor (ev q v) (ev r v).
Proof.
  induction n as [|n IH]; intros q r v Hq Hr.
  - cbn in Hq, Hr. replace q with 0 by lia. replace r with 0 by lia. reflexivity.
  - rewrite Nnat.Nat2N.inj_succ, N.pow_succ_r' in Hq, Hr.
    rewrite (ev_bit (N.lxor q r)), (ev_bit q), (ev_bit r), odd_lxor, div2_lxor.
    rewrite IH by (rewrite N.div2_div; apply N.div_lt_upper_bound; lia). rewrite step_linear, lxor_cancel. f_equal.
    destruct (N.odd q), (N.odd r); cbn [xorb]; rewrite ?N.lxor_nilpotent, ?N.lxor_0_r, ?N.lxor_0_l; reflexivity.
Qed.
Lemma ev_lxor : forall q r v, ev (N.lxor q r) v = N.lxor (ev q v) (ev r v).
Proof.
  intros q r v. apply (ev_lxor_n (N.to_nat (N.size q + N.size r))); rewrite N2Nat.id.
  - apply N.lt_le_trans with (2 ^ N.size q); [apply N.size_gt|apply N.pow_le_mono_r; lia].
  - apply N.lt_le_trans with (2 ^ N.size r); [apply N.size_gt|apply N.pow_le_mono_r; lia].
Qed.

Definition charpoly : N := 18536486914334208513.
Lemma charpoly_basis : cols (ev charpoly) 64 = repeat 0 64.
Proof. vm_compute. reflexivity. Qed.
Lemma app_zeros : forall n v, app (repeat 0 n) v = 0.
Proof. induction n as [|n IH]; intro v; [reflexivity|]. cbn [repeat app]. rewrite IH. destruct (N.odd v); reflexivity. Qed.
Lemma charpoly_zero : forall v, v < U64 -> ev charpoly v = 0.
Proof. intros v H. rewrite <- (cols_app 64 (ev charpoly) v (ev_linear charpoly) H), charpoly_basis. apply app_zeros. Qed.

Definition mulx (q : N) : N := let d := 2 * q in if N.testbit d 64 then N.lxor d charpoly else d.
Fixpoint mulp (q : N) (r : positive) : N := match r with xH => q | xO r => mulx (mulp q r) | xI r => N.lxor q (mulx (mulp q r)) end.
Definition mul (q r : N) : N := match r with 0 => 0 | Npos r => mulp q r end.
Fixpoint pw (q : N) (p : positive) : N := match p with xH => q | xO p => let b := pw q p in mul b b | xI p => let b := pw q p in mul q (mul b b) end.
Lemma mulx_ev : forall q v, v < U64 -> ev (mulx q) v = randStep (ev q v).
Proof.
  intros q v H. unfold mulx. cbv zeta. destruct (N.testbit (2 * q) 64); [|apply ev_double]. rewrite ev_lxor, charpoly_zero, N.lxor_0_r by exact H. apply ev_double.
Qed.
Lemma evp_lt : forall p v, v < U64 -> evp p v < U64.
Proof. induction p as [p IH|p IH|]; intros v H; cbn [evp]; [apply lxor_lt; [exact H|]|..]; auto using step_lt. Qed.
Lemma ev_lt : forall q v, v < U64 -> ev q v < U64.
Proof. intros [|p] v H; [reflexivity|apply evp_lt; exact H]. Qed.
Lemma ev_0 : forall q, ev q 0 = 0.
Proof. intro q. apply linear_0, ev_linear. Qed.
Lemma ev_step : forall q v, ev q (randStep v) = randStep (ev q v).
Proof.
  intros [|p] v; [reflexivity|]. cbn [ev]. induction p as [p IH|p IH|]; cbn [evp]; [|rewrite IH; reflexivity|reflexivity]. rewrite IH, step_linear. reflexivity.
Qed.
Lemma mul_ev : forall q r v, v < U64 -> ev (mul q r) v = ev q (ev r v).
Proof.
  intros q [|r] v H; [symmetry; apply ev_0|]. cbn [mul]. induction r as [r IH|r IH|]; cbn [mulp]; [| |reflexivity].
  - rewrite ev_lxor, mulx_ev, IH by exact H. cbn [ev evp]. rewrite ev_linear. f_equal. rewrite ev_step. reflexivity.
  - rewrite mulx_ev, IH by exact H. cbn [ev evp]. rewrite ev_step. reflexivity.
Qed.
Lemma iter_ev_lt : forall q p v, v < U64 -> Pos.iter (ev q) v p < U64.
Proof. intros q p v H. apply Pos.iter_invariant; [intros x Hx; apply ev_lt; exact Hx|exact H]. Qed.
Lemma pw_ev : forall q p v, v < U64 -> ev (pw q p) v = Pos.iter (ev q) v p.
Proof.
  intros q p. induction p as [p IH|p IH|]; intros v H; cbn [pw Pos.iter]; [| |reflexivity].
  - rewrite !mul_ev by exact H. rewrite (IH v H), IH by (apply iter_ev_lt; exact H). reflexivity.
  - rewrite mul_ev by exact H. rewrite (IH v H), IH by (apply iter_ev_lt; exact H). reflexivity.
Qed.

Definition P : positive := 18446744073709551615.
Definition primes : list positive := [3; 5; 17; 257; 641; 65537; 6700417]%positive.
Definition cofactors : list positive := [6148914691236517205; 3689348814741910323; 1085102592571150095; 71777214294589695; 28778071877862015; 281470681808895; 2753074036095]%positive.
Lemma period_check : pw 2 P = 1.
Proof. vm_compute. reflexivity. Qed.
(** T^k + 1 for a divisor k of the period: its P-th power is 1, so it has no kernel. *)
Definition kernel_free (k : positive) : Prop := pw (N.lxor (pw 2 k) 1) P = 1.
Lemma kernels_check : Forall kernel_free cofactors.
Proof. repeat (apply Forall_cons; [vm_compute; reflexivity|]). apply Forall_nil. Qed.

Lemma iter_lt : forall n s, s < U64 -> N.iter n randStep s < U64.
Proof. intros n s H. apply N.iter_invariant; [exact step_lt|exact H]. Qed.
Lemma iter_ev2 : forall p s, Pos.iter (ev 2) s p = N.iter (Npos p) randStep s.
Proof. reflexivity. Qed.
Lemma iter_add : forall a b s, N.iter (a + b) randStep s = N.iter a randStep (N.iter b randStep s).
Proof. intros. apply N.iter_add. Qed.
Theorem rand_period : forall s, s < U64 -> N.iter (Npos P) randStep s = s.
Proof.
  intros s H. rewrite <- iter_ev2, <- pw_ev, period_check by exact H. reflexivity.
Qed.
Lemma iter_mult : forall k d s, N.iter d randStep s = s -> N.iter (k * d) randStep s = s.
Proof.
  intros k d s H. induction k as [|k IH] using N.peano_ind; [reflexivity|]. rewrite N.mul_succ_l, N.add_comm, iter_add, IH. exact H.
Qed.
Lemma iter_0 : forall n, N.iter n randStep 0 = 0.
Proof. intro n. apply N.iter_invariant; [intros x ->; reflexivity|reflexivity]. Qed.
Theorem rand_nonzero : forall n s, s < U64 -> s <> 0 -> N.iter n randStep s <> 0.
Proof.
  intros n s H NZ E. apply NZ. rewrite <- (iter_mult n (Npos P) s (rand_period s H)).
  replace (n * Npos P) with ((n * (Npos P - 1)) + n) by (change (Npos P) with (Npos P - 1 + 1) at 2; lia).
  rewrite iter_add, E. apply iter_0.
Qed.

Lemma iter_kernel : forall (f : N -> N) v p, f v = 0 -> f 0 = 0 -> Pos.iter f v p = 0.
Proof. intros f v p Hv H0. induction p as [|p IH] using Pos.peano_ind; [exact Hv|]. rewrite Pos.iter_succ, IH. exact H0. Qed.
Lemma kernel_spec : forall k, kernel_free k -> forall s, s < U64 -> N.iter (Npos k) randStep s = s -> s = 0.
Proof.
  intros k K s H E. unfold kernel_free in K. set (q := N.lxor (pw 2 k) 1) in *.
  assert (Z : ev q s = 0) by (unfold q; rewrite ev_lxor, pw_ev, iter_ev2, E by exact H; apply N.lxor_nilpotent).
  change s with (ev 1 s). rewrite <- K, pw_ev by exact H. apply iter_kernel; [exact Z|apply ev_0].
Qed.

(** ** Divisors of the period *)
Lemma iter_gcd : forall a b s, N.iter a randStep s = s -> N.iter b randStep s = s -> N.iter (N.gcd a b) randStep s = s.
Proof.
  intro a. induction a as [a IH] using (well_founded_induction N.lt_wf_0). intros b s Ha Hb.
  destruct (N.eq_dec a 0) as [-> | Na]; [rewrite N.gcd_0_l; exact Hb|].
  rewrite <- N.gcd_mod by exact Na. apply IH; [apply N.mod_lt; exact Na| |exact Ha].
  pose proof (N.div_mod b a Na) as D. rewrite D in Hb. rewrite N.add_comm, iter_add in Hb.
  rewrite (N.mul_comm a), iter_mult in Hb by exact Ha. exact Hb.
Qed.

Definition no_divisor (p : Z) (k : nat) : bool := forallb (fun i => negb (p mod (Z.of_nat i + 2) =? 0)%Z) (seq 0 k).
Lemma prime_check : forall p k, (1 < p)%Z -> no_divisor p k = true -> (p < (Z.of_nat k + 2) * (Z.of_nat k + 2))%Z -> prime p.
Proof.
  intros p k H1 D Hk. apply prime_alt. split; [exact H1|]. intros n Hn (q & Q).
  unfold no_divisor in D. rewrite forallb_forall in D.
  assert (X : forall m, (1 < m)%Z -> (m < Z.of_nat k + 2)%Z -> ~ (m | p)%Z).
  { intros m M1 M2 Dm. specialize (D (Z.to_nat (m - 2))). assert (In (Z.to_nat (m - 2)) (seq 0 k)) as In1 by (apply in_seq; lia). specialize (D In1).
    replace (Z.of_nat (Z.to_nat (m - 2)) + 2)%Z with m in D by lia. apply Znumtheory.Zdivide_mod in Dm. rewrite Dm in D. discriminate D. }
  destruct (Z.lt_ge_cases n (Z.of_nat k + 2)) as [L|L]; [apply (X n); [lia|exact L|exists q; exact Q]|].
  destruct (Z.lt_ge_cases q (Z.of_nat k + 2)) as [L2|L2]; [apply (X q); [nia|exact L2|exists n; lia]|]. nia.
Qed.
Lemma primes_prime : Forall (fun p => prime (Zpos p)) primes.
Proof.
  unfold primes. apply Forall_cons; [apply (prime_check 3 0); vm_compute; reflexivity|]. apply Forall_cons; [apply (prime_check 5 1); vm_compute; reflexivity|].
  apply Forall_cons; [apply (prime_check 17 3); vm_compute; reflexivity|]. apply Forall_cons; [apply (prime_check 257 15); vm_compute; reflexivity|].
  apply Forall_cons; [apply (prime_check 641 24); vm_compute; reflexivity|]. apply Forall_cons; [apply (prime_check 65537 255); vm_compute; reflexivity|].
  apply Forall_cons; [apply (prime_check 6700417 2588); vm_compute; reflexivity|]. apply Forall_nil.
Qed.
Lemma coprime_prod : forall m (ps : list Z), Forall (fun p => rel_prime m p) ps -> rel_prime m (fold_right Z.mul 1%Z ps).
Proof.
  intros m ps F. induction F as [|p ps H F IH]; cbn [fold_right]; [apply rel_prime_sym, rel_prime_1|]. apply rel_prime_mult; assumption.
Qed.
Lemma divisor_prime : forall m, (1 < m)%Z -> (m | Zpos P)%Z -> exists p, In p primes /\ (Zpos p | m)%Z.
Proof.
  intros m H D. destruct (Exists_dec (fun p => (Zpos p | m)%Z) primes (fun p => Zdivide_dec _ _)) as [E|E].
  { apply Exists_exists in E. exact E. }
  exfalso. assert (R : rel_prime m (Zpos P)).
  { change (Zpos P) with (fold_right Z.mul 1%Z (map Zpos primes)). apply coprime_prod. apply Forall_map. rewrite <- Forall_Exists_neg in E. rewrite Forall_forall in *.
    intros p Ip. apply rel_prime_sym. apply prime_rel_prime; [|exact (E p Ip)]. exact (proj1 (Forall_forall _ _) primes_prime p Ip). }
  destruct R as [_ _ G]. specialize (G m (Z.divide_refl m) D). apply Z.divide_1_r_nonneg in G; lia.
Qed.
Lemma proper_divisor : forall g, (0 < g)%Z -> (g < Zpos P)%Z -> (g | Zpos P)%Z -> exists c, In c cofactors /\ (g | Zpos c)%Z.
Proof.
  intros g G0 G1 (m & M). assert (Hm : (1 < m)%Z) by nia.
  destruct (divisor_prime m Hm) as (p & Ip & (x & X)); [exists g; lia|].
  assert (C : exists c, In c cofactors /\ (Zpos p * Zpos c = Zpos P)%Z).
  { cbn [primes In] in Ip. destruct Ip as [<-|[<-|[<-|[<-|[<-|[<-|[<-|[]]]]]]]];
    [exists 6148914691236517205%positive|exists 3689348814741910323%positive|exists 1085102592571150095%positive|exists 71777214294589695%positive|exists 28778071877862015%positive|exists 281470681808895%positive|exists 2753074036095%positive]; (split; [cbn [cofactors In]; tauto|reflexivity]). }
  destruct C as (c & Ic & Pc). exists c. split; [exact Ic|]. exists x. rewrite X in M. rewrite <- Pc in M.
  assert (0 < Zpos p)%Z by reflexivity. nia.
Qed.
(** No nonzero state recurs earlier. *)
Theorem rand_order : forall d s, s < U64 -> s <> 0 -> 0 < d -> d < Npos P -> N.iter d randStep s <> s.
Proof.
  intros d s H NZ D0 D1 E. apply NZ.
  pose proof (iter_gcd d (Npos P) s E (rand_period s H)) as G. set (g := N.gcd d (Npos P)) in *.
  assert (Gd : (g | d)) by apply N.gcd_divide_l. assert (GP : (g | Npos P)) by apply N.gcd_divide_r.
  assert (g <> 0) by (intro X; apply N.gcd_eq_0_l in X; lia).
  assert (g <= d) by (apply N.divide_pos_le; [lia|exact Gd]).
  destruct (proper_divisor (Z.of_N g)) as (c & Ic & (x & X)); [lia| |destruct GP as (y & Y); exists (Z.of_N y); change (Zpos P) with (Z.of_N (Npos P)); rewrite Y; lia|].
  { change (Zpos P) with (Z.of_N (Npos P)). lia. }
  apply (kernel_spec c); [|exact H|].
  - exact (proj1 (Forall_forall _ _) kernels_check c Ic).
  - replace (Npos c) with (Z.to_N x * g) by (assert (0 < x)%Z by nia; assert (Z.of_N (Z.to_N x * g) = Z.of_N (Npos c)) by (rewrite N2Z.inj_mul, Z2N.id by lia; symmetry; exact X); lia).
    apply iter_mult. exact G.
Qed.

(** ** All values occur *)
Lemma pigeon : forall (n : nat) (f : N -> N), (forall i, i < N.of_nat n -> 1 <= f i /\ f i <= N.of_nat n) ->
  (forall i j, i < N.of_nat n -> j < N.of_nat n -> f i = f j -> i = j) -> forall t, 1 <= t -> t <= N.of_nat n -> exists i, i < N.of_nat n /\ f i = t.
Proof.
  intros n f R J t T1 T2.
  set (l := map (fun k => f (N.of_nat k)) (seq 0 n)). set (l' := map (fun k => N.of_nat (S k)) (seq 0 n)).
  assert (ND : NoDup l).
  { assert (G : forall a m, (a + m <= n)%nat -> NoDup (map (fun k => f (N.of_nat k)) (seq a m))).
    { intros a m. revert a. induction m as [|m IH]; intros a Ha; cbn [seq map]; constructor.
      - intro X. apply in_map_iff in X. destruct X as (k & E & Ik). apply in_seq in Ik. apply J in E; lia.
      - apply IH. lia. }
    apply G. lia. }
  assert (IN : incl l' l).
  { apply NoDup_length_incl; [exact ND|unfold l, l'; rewrite !map_length; lia|]. intros x X. apply in_map_iff in X. destruct X as (k & <- & Ik). apply in_seq in Ik.
    destruct (R (N.of_nat k) ltac:(lia)) as [R1 R2]. apply in_map_iff. exists (N.to_nat (f (N.of_nat k)) - 1)%nat. split; [lia|]. apply in_seq. lia. }
  assert (It : In t l') by (apply in_map_iff; exists (N.to_nat t - 1)%nat; split; [lia|apply in_seq; lia]).
  apply IN, in_map_iff in It. destruct It as (k & E & Ik). apply in_seq in Ik. exists (N.of_nat k). split; [lia|exact E].
Qed.
Lemma rand_distinct : forall s i j, s < U64 -> s <> 0 -> i < j -> j < Npos P -> N.iter i randStep s <> N.iter j randStep s.
Proof.
  intros s i j H NZ Hij Hj E. apply (rand_order (j - i) (N.iter i randStep s)); [apply iter_lt, H|apply rand_nonzero; assumption|lia|lia|].
  rewrite <- iter_add. replace (j - i + i) with j by lia. symmetry. exact E.
Qed.
Lemma U64_P : U64 = Npos P + 1.
Proof. reflexivity. Qed.
Theorem rand_all_states : forall s t, s < U64 -> s <> 0 -> t < U64 -> t <> 0 -> exists i, i < Npos P /\ N.iter i randStep s = t.
Proof.
  intros s t H NZ Ht NT. destruct (pigeon (N.to_nat (Npos P)) (fun i => N.iter i randStep s)) with (t := t) as (i & Hi & E).
  - intros i Hi. pose proof (iter_lt i s H) as L. pose proof (rand_nonzero i s H NZ) as Z. rewrite U64_P in L. rewrite N2Nat.id. revert L Z. generalize (N.iter i randStep s). generalize (Npos P). intros; lia.
  - intros i j Hi Hj E. rewrite N2Nat.id in Hi, Hj. destruct (N.lt_trichotomy i j) as [L|[L|L]]; [|exact L|].
    + exfalso. exact (rand_distinct s i j H NZ L Hj E).
    + exfalso. exact (rand_distinct s j i H NZ L Hi (eq_sym E)).
  - lia.
  - rewrite N2Nat.id. rewrite U64_P in Ht. revert Ht. generalize (Npos P). intros; lia.
  - rewrite N2Nat.id in Hi. exists i. split; [exact Hi|exact E].
Qed.

(** ** Sequences of calls *)
Fixpoint rands (n : nat) (s : N) : list N * N :=
  match n with O => ([], s) | S n => let (s1, r) := rand s in let (rs, s2) := rands n s1 in (r :: rs, s2) end.
Lemma rand_range : forall s, snd (rand s) <= randMax.
Proof.
  intro s. unfold rand. cbn [snd]. change randMax with (N.ones 31). rewrite N.land_ones. pose proof (N.mod_lt (randStep s) (2 ^ 31) ltac:(discriminate)). rewrite N.ones_equiv. lia.
Qed.
Lemma rands_state : forall n s, snd (rands n s) = N.iter (N.of_nat n) randStep s.
Proof.
  induction n as [|n IH]; intro s; [reflexivity|]. cbn [rands]. unfold rand. specialize (IH (randStep s)). destruct (rands n (randStep s)) as [rs s2]. cbn [snd] in *. rewrite IH.
  rewrite Nnat.Nat2N.inj_succ, N.iter_succ_r. reflexivity.
Qed.
Theorem rand_all_results : forall s r, s < U64 -> s <> 0 -> r <= randMax -> exists i, i < Npos P /\ snd (rand (N.iter i randStep s)) = r.
Proof.
  intros s r H NZ Hr.
  set (t := r + 2147483648).
  assert (Ht : t < U64). { unfold t. change randMax with 2147483647 in Hr. apply N.le_lt_trans with 4294967295; [lia|reflexivity]. }
  destruct (rand_all_states (randStep s) t) as (i & Hi & E); [apply step_lt, H|exact (rand_nonzero 1 s H NZ)|exact Ht|unfold t; lia|].
  exists i. split; [exact Hi|]. unfold rand. cbn [snd]. rewrite <- N.iter_swap, E. unfold t. change randMax with (N.ones 31). rewrite N.land_ones.
  change 2147483648 with (1 * 2 ^ 31). rewrite N.mod_add by discriminate. apply N.mod_small. change randMax with 2147483647 in Hr. change (2 ^ 31) with 2147483648. lia.
Qed.
Theorem srand_state : forall seed s, s < U64 -> s <> 0 -> (seed <= INT_MAX)%Z -> srand seed s < U64 /\ srand seed s <> 0.
Proof.
  intros seed s H NZ Hs. unfold srand, rand. destruct (Z.ltb_spec 0 seed); [|split; assumption]. cbn [fst].
  assert (L : Z.to_N seed < U64). { unfold INT_MAX in Hs. change U64 with (Z.to_N (2 ^ 64)). apply Z2N.inj_lt; [lia|lia|]. apply Z.le_lt_trans with (1 := Hs). reflexivity. }
  split; [apply step_lt, L|]. apply (rand_nonzero 1); [exact L|lia].
Qed.

(** Memory and execution lemmas for CloModel.v. *)
From Coq Require Import ZArith Lia Bool List.
From Verif Require Import Base CloModel.
Import ListNotations.
Local Open Scope Z_scope.

Lemma setn_len A (l : list A) n a : length (setn l n a) = length l.
Proof. revert n; induction l; intros [|n]; cbn; auto. Qed.
Lemma setn_same A (l : list A) n a : (n < length l)%nat -> nth_error (setn l n a) n = Some a.
Proof. revert n; induction l; intros [|n] H; cbn in *; try lia; auto. apply IHl. lia. Qed.
Lemma setn_other A (l : list A) n m a : n <> m -> nth_error (setn l n a) m = nth_error l m.
Proof. revert n m; induction l; intros [|n] [|m] H; cbn; auto; try lia. Qed.

(** [chg P M M']: M' has the blocks of M, with changes only at the places [P] outside the heap. *)
Definition chg (P : nat -> nat -> Prop) (M M' : list block) : Prop :=
  (length M <= length M')%nat /\
  forall k B, nth_error M k = Some B -> exists B', nth_error M' k = Some B' /\ bheap B' = bheap B /\ length (bdata B') = length (bdata B) /\
    (bheap B = true -> B' = B) /\ forall o, ~ P k o -> nth_error (bdata B') o = nth_error (bdata B) o.
(** [heaps M M']: the heap of M is still there. *)
Definition heaps (M M' : list block) : Prop := forall k B, nth_error M k = Some B -> bheap B = true -> nth_error M' k = Some B.

Lemma chg_refl P M : chg P M M.
Proof. split; [lia|]. intros k B H. exists B. auto 10. Qed.
Lemma chg_trans P M1 M2 M3 : chg P M1 M2 -> chg P M2 M3 -> chg P M1 M3.
Proof.
  intros [L1 H1] [L2 H2]. split; [lia|]. intros k B H.
  destruct (H1 _ _ H) as (B2 & Q & E1 & E2 & E3 & E4). destruct (H2 _ _ Q) as (B3 & Q3 & F1 & F2 & F3 & F4).
  exists B3. split; [exact Q3|]. split; [congruence|]. split; [congruence|]. split.
  - intros X. rewrite F3 by congruence. auto.
  - intros o N. rewrite F4, E4; auto.
Qed.
Lemma chg_mono (P Q : nat -> nat -> Prop) M M' : (forall k o, (k < length M)%nat -> P k o -> Q k o) -> chg P M M' -> chg Q M M'.
Proof.
  intros S [L H]. split; [exact L|]. intros k B E. destruct (H _ _ E) as (B2 & Q2 & E1 & E2 & E3 & E4). exists B2. repeat (split; auto).
  intros o N. apply E4. intros X. apply N. apply S; auto. apply nth_error_Some. congruence.
Qed.
Lemma chg_heaps P M M' : chg P M M' -> heaps M M'.
Proof. intros [_ H] k B E X. destruct (H _ _ E) as (B2 & Q & _ & _ & E3 & _). rewrite Q. f_equal. auto. Qed.
Lemma heaps_refl M : heaps M M.
Proof. intros k B H _. exact H. Qed.
Lemma heaps_trans A B C : heaps A B -> heaps B C -> heaps A C.
Proof. intros H1 H2 k X E F. apply H2; auto. Qed.
Lemma chg_snoc P M B : chg P M (M ++ [B]).
Proof.
  split; [rewrite app_length; lia|]. intros k C H. exists C. split; [|auto]. rewrite nth_error_app1; auto. apply nth_error_Some. congruence.
Qed.

(** A stack block of a given length. *)
Definition frame (M : list block) (b n : nat) : Prop := exists d, nth_error M b = Some (Blk false d) /\ length d = n.
Lemma frame_chg P M M' b n : chg P M M' -> frame M b n -> frame M' b n.
Proof.
  intros [_ H] (d & E & L). destruct (H _ _ E) as ([h d'] & Q & E1 & E2 & _). cbn in *. subst h. exists d'. split; auto. congruence.
Qed.
Lemma frame_lt M b n : frame M b n -> (b < length M)%nat.
Proof. intros (d & E & _). apply nth_error_Some. congruence. Qed.

Lemma read_chg P M M' b o v : chg P M M' -> ~ P b o -> read M b o = Ok v -> read M' b o = Ok v.
Proof.
  intros [_ H] N. unfold read. destruct (nth_error M b) as [B|] eqn:E; [|discriminate]. destruct (H _ _ E) as (B' & -> & _ & _ & _ & X). rewrite (X _ N). auto.
Qed.
Lemma reads_chg P M M' b k : chg P M M' -> forall o l, (forall i, (o <= i < o + k)%nat -> ~ P b i) -> reads M b o k = Ok l -> reads M' b o k = Ok l.
Proof.
  intros C. induction k as [|k IH]; intros o l N; [auto|]. cbn [reads bind]. destruct (read M b o) as [v| |] eqn:E; cbn [bind]; try discriminate.
  rewrite (read_chg _ _ _ _ _ _ C (N o ltac:(lia)) E). cbn [bind]. destruct (reads M b (S o) k) as [r| |] eqn:F; cbn [bind]; try discriminate.
  rewrite (IH (S o) r); auto. intros i Hi. apply N. lia.
Qed.
Lemma reads_heaps M M' b B k : nth_error M b = Some B -> bheap B = true -> heaps M M' -> forall o, reads M' b o k = reads M b o k.
Proof.
  intros E Hp H. pose proof (H _ _ E Hp) as E'. induction k as [|k IH]; intros o; [auto|]. cbn [reads]. unfold read. rewrite E, E'.
  destruct (nth_error (bdata B) o); auto. cbn [bind]. rewrite IH. reflexivity.
Qed.
Lemma reads_len M b k : forall o l, reads M b o k = Ok l -> length l = k.
Proof.
  induction k as [|k IH]; cbn [reads]; intros o l H; [injection H as <-; auto|]. destruct (read M b o); try discriminate. cbn [bind] in H.
  destruct (reads M b (S o) k) eqn:F; try discriminate. injection H as <-. cbn. f_equal. eauto.
Qed.
Lemma reads_app M b j k : forall o l1 l2, reads M b o j = Ok l1 -> reads M b (o + j) k = Ok l2 -> reads M b o (j + k) = Ok (l1 ++ l2).
Proof.
  induction j as [|j IH]; cbn [reads Nat.add]; intros o l1 l2 H1 H2; [injection H1 as <-; rewrite Nat.add_0_r in H2; exact H2|].
  destruct (read M b o) as [v| |]; try discriminate. cbn [bind] in *. destruct (reads M b (S o) j) as [r| |] eqn:F; try discriminate.
  injection H1 as <-. rewrite (IH (S o) r l2 F); [reflexivity|]. rewrite <- H2. f_equal. lia.
Qed.
Lemma reads_split M b j k : forall o l, reads M b o (j + k) = Ok l -> exists l1 l2, l = l1 ++ l2 /\ reads M b o j = Ok l1 /\ reads M b (o + j) k = Ok l2.
Proof.
  induction j as [|j IH]; cbn [reads Nat.add]; intros o l H.
  - exists [], l. rewrite Nat.add_0_r. auto.
  - destruct (read M b o) as [v| |]; try discriminate. cbn [bind] in *. destruct (reads M b (S o) (j + k)) as [r| |] eqn:F; try discriminate.
    injection H as <-. destruct (IH _ _ F) as (l1 & l2 & -> & E1 & E2). exists (v :: l1), l2. rewrite E1. cbn [bind]. replace (o + S j)%nat with (S o + j)%nat by lia. auto.
Qed.
(** Reading from a block whose contents are known. *)
Lemma reads_block M b h d : nth_error M b = Some (Blk h d) -> forall l1 l2 l3, d = l1 ++ l2 ++ l3 -> reads M b (length l1) (length l2) = Ok l2.
Proof.
  intros E l1 l2. revert l1. induction l2 as [|v l2 IH]; intros l1 l3 D; [reflexivity|]. cbn [length reads]. unfold read. rewrite E. cbn [bdata].
  rewrite D, nth_error_app2 by lia. rewrite Nat.sub_diag. cbn [nth_error app bind].
  replace (S (length l1)) with (length (l1 ++ [v])) by (rewrite app_length; cbn; lia). rewrite (IH (l1 ++ [v]) l3); [reflexivity|]. rewrite <- app_assoc. exact D.
Qed.

Definition span (b o n : nat) (k i : nat) : Prop := k = b /\ (o <= i < o + n)%nat.
Lemma write_ok M b n o v : frame M b n -> (o < n)%nat -> exists M', write M b o v = Ok M' /\ chg (span b o 1) M M' /\ read M' b o = Ok v.
Proof.
  intros (d & E & L) H. unfold write. rewrite E. cbn [bdata bheap]. rewrite (proj2 (Nat.ltb_lt o (length d))) by lia.
  assert (Lb : (b < length M)%nat) by (apply nth_error_Some; congruence).
  eexists. split; [reflexivity|]. split.
  - split; [rewrite setn_len; lia|]. intros k B K. destruct (Nat.eq_dec b k) as [<-|N].
    + rewrite E in K. injection K as <-. eexists. split; [apply setn_same; exact Lb|]. cbn. rewrite setn_len. repeat (split; auto); [discriminate|].
      intros i Hi. apply setn_other. unfold span in Hi. lia.
    + exists B. rewrite setn_other by exact N. auto.
  - unfold read. rewrite setn_same by exact Lb. cbn. rewrite setn_same; auto. lia.
Qed.
Lemma writes_ok b n l : forall M o, frame M b n -> (o + length l <= n)%nat ->
  exists M', writes M b o l = Ok M' /\ chg (span b o (length l)) M M' /\ reads M' b o (length l) = Ok l.
Proof.
  induction l as [|v l IH]; intros M o F H; cbn [writes length reads] in *.
  - exists M. split; auto. split; auto. apply chg_refl.
  - destruct (write_ok M b n o v F ltac:(lia)) as (M1 & -> & C1 & R1). cbn [bind].
    destruct (IH M1 (S o) (frame_chg _ _ _ _ _ C1 F) ltac:(lia)) as (M2 & -> & C2 & R2). exists M2. split; [reflexivity|]. split.
    + eapply chg_trans; [eapply chg_mono; [|exact C1]|eapply chg_mono; [|exact C2]]; intros k i _; unfold span; lia.
    + rewrite (read_chg (span b (S o) (length l)) M1 M2 b o v C2 ltac:(unfold span; lia) R1). cbn [bind]. rewrite R2. reflexivity.
Qed.

(** ** Execution *)
Lemma exec_app tab cf lim a : forall b s, exec tab cf lim (a ++ b) s = let* (s, r) := exec tab cf lim a s in if r then Ok (s, true) else exec tab cf lim b s.
Proof.
  induction a as [|i a IH]; intros b s; cbn [app exec bind]; [reflexivity|]. destruct (xi tab cf lim i s) as [[s1 [|]]| |]; cbn [bind]; auto.
Qed.
(** The loop of ILoop. *)
Section Loop.
Variables (tab : list fcode) (cf : fcode -> st -> outcome st) (lim : nat) (c b : code).
Fixpoint loopM (n : nat) (s : st) : outcome (st * bool) :=
  match n with
  | O => Err EFuel
  | S n =>
      let* (s, _) := exec tab cf lim c s in
      match stk s with
      | VZ z :: l =>
          let s := St (mem s) l (reg s) (fr s) in
          if z =? 0 then Ok (s, false) else let* (s, r) := exec tab cf lim b s in if r then Ok (s, true) else loopM n s
      | _ => UB
      end
  end.
End Loop.
Lemma xi_loop tab cf lim c b s : xi tab cf lim (ILoop c b) s = loopM tab cf lim c b lim s.
Proof. reflexivity. Qed.
Lemma xi_if tab cf lim a b M z l rg f : xi tab cf lim (IIf a b) (St M (VZ z :: l) rg f) = if z =? 0 then exec tab cf lim b (St M l rg f) else exec tab cf lim a (St M l rg f).
Proof. reflexivity. Qed.

Section Steps.
Context (tab : list fcode) (cf : fcode -> st -> outcome st) (lim : nat).
Notation X := (exec tab cf lim).
Lemma x_push v k M l rg f : X (IPush v :: k) (St M l rg f) = X k (St M (v :: l) rg f).
Proof. reflexivity. Qed.
Lemma x_local n k M l rg f : X (ILocal n :: k) (St M l rg f) = X k (St M (VPtr f n :: l) rg f).
Proof. reflexivity. Qed.
Lemma x_global n k M l rg f : X (IGlobal n :: k) (St M l rg f) = X k (St M (VPtr 0 n :: l) rg f).
Proof. reflexivity. Qed.
Lemma x_deref k M b o v l rg f : read M b o = Ok v -> X (IDeref :: k) (St M (VPtr b o :: l) rg f) = X k (St M (v :: l) rg f).
Proof. intros H. cbn [exec xi mem stk]. rewrite H. reflexivity. Qed.
Lemma x_field j k M b o l rg f : X (IField j :: k) (St M (VPtr b o :: l) rg f) = X k (St M (VPtr b (o + j) :: l) rg f).
Proof. reflexivity. Qed.
Lemma x_zero j k M M' b o l rg f : writes M b o (repeat (VZ 0) j) = Ok M' -> X (IZero j :: k) (St M (VPtr b o :: l) rg f) = X k (St M' l rg f).
Proof. intros H. cbn [exec xi mem stk]. rewrite H. reflexivity. Qed.
Lemma x_assign sw j k M M' a c l rg f : (if sw : bool then store M a c j else store M c a j) = Ok M' -> X (IAssign sw j :: k) (St M (a :: c :: l) rg f) = X k (St M' l rg f).
Proof. intros H. cbn [exec xi mem stk]. rewrite H. reflexivity. Qed.
Lemma x_upvalue k M b o e l rg f : read M b o = Ok e -> X (IUpvalue :: k) (St M (VPtr b o :: l) rg f) = X k (St M (VPtr b (S o) :: e :: l) rg f).
Proof. intros H. cbn [exec xi mem stk]. rewrite H. reflexivity. Qed.
Lemma x_param j k M b o p l rg f : reads M b o j = Ok p -> X (IParam j :: k) (St M (VPtr b o :: l) rg f) = X k (St M (p ++ l) rg f).
Proof. intros H. cbn [exec xi mem stk]. rewrite H. reflexivity. Qed.
Lemma x_dup k M v l rg f : X (IDup :: k) (St M (v :: l) rg f) = X k (St M (v :: v :: l) rg f).
Proof. reflexivity. Qed.
Lemma x_pop k M v l rg f : X (IPop :: k) (St M (v :: l) rg f) = X k (St M l rg f).
Proof. reflexivity. Qed.
Lemma x_pushres k M l rg f : X (IPushRes :: k) (St M l rg f) = X k (St M (rg :: l) rg f).
Proof. reflexivity. Qed.
Lemma x_popres k M v l rg f : X (IPopRes :: k) (St M (v :: l) rg f) = X k (St M l v f).
Proof. reflexivity. Qed.
Lemma x_escape j k M b o p l rg f : reads M b o j = Ok p -> X (IEscape j :: k) (St M (VPtr b o :: l) rg f) = X k (St (M ++ [Blk true p]) (VPtr (length M) 0 :: l) rg f).
Proof. intros H. cbn [exec xi mem stk]. rewrite H. reflexivity. Qed.
Lemma ty_eqb_refl : forall t, ty_eqb t t = true.
Proof.
  fix IH 1. intros [|ps r]; [reflexivity|]. cbn [ty_eqb]. apply andb_true_intro. split; [|apply IH].
  induction ps as [|p ps IHp]; [reflexivity|]. rewrite IH, IHp. reflexivity.
Qed.
Lemma ty_eqb_eq : forall a b, ty_eqb a b = true -> a = b.
Proof.
  fix IH 1. intros [|ps r] [|qs s] H; try discriminate; [reflexivity|]. cbn [ty_eqb] in H. apply andb_prop in H as [H1 H2]. apply IH in H2. subst s. f_equal.
  revert qs H1. induction ps as [|p ps IHp]; intros [|q qs] H; try discriminate; [reflexivity|]. apply andb_prop in H as [Ha Hb]. f_equal; [apply IH; exact Ha|apply IHp; exact Hb].
Qed.
Lemma x_check ts k M b o v l rg f : reads M b o 2 = Ok [v; VTag ts] -> X (ICheck ts :: k) (St M (VPtr b o :: l) rg f) = X k (St M (v :: l) rg f).
Proof.
  intros H. cbn [reads] in H. cbn [exec xi mem stk]. destruct (read M b o) as [w| |]; try discriminate. cbn [bind] in *. destruct (read M b (S o)) as [u| |]; try discriminate.
  cbn [bind] in *. injection H as -> ->. rewrite ty_eqb_refl. reflexivity.
Qed.
Lemma x_call j k M l e fc rg f : nth_error l j = Some (VZ (Z.of_nat e + 1)) -> nth_error tab e = Some fc ->
  X (ICall j :: k) (St M l rg f) = let* s := cf fc (St M l rg f) in X k s.
Proof.
  intros H T. cbn [exec xi mem stk]. rewrite H. destruct (Z.eqb_spec (Z.of_nat e + 1) 0); [lia|]. replace (Z.to_nat (Z.of_nat e + 1 - 1)) with e by lia. rewrite T.
  destruct (cf fc (St M l rg f)); reflexivity.
Qed.
Lemma x_call0 j k M l rg f : nth_error l j = Some (VZ 0) -> X (ICall j :: k) (St M l rg f) = Err EIllegalFn.
Proof. intros H. cbn [exec xi mem stk]. rewrite H. reflexivity. Qed.
End Steps.

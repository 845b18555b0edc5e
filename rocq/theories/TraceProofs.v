From Coq Require Import ZArith Lia Bool List ZifyBool.
From Verif Require Import Base CallModel CallSpec CallProofs CallSim CallKeep CallThm CallStep TraceModel TraceSpec.
Import ListNotations.
Local Open Scope Z_scope.

(** ** Unwinding *)
Lemma climb_ok : forall s size c pre d ip, c_mem c = pre ++ flat size s -> len pre = size - slen s -> wfS s ->
  match nth_error (ip :: untilOutside (returns s)) d with
  | Some r => exists b, climb d c (base_of size s) ip = Ok (Some (b, r))
  | None => climb d c (base_of size s) ip = Ok None
  end.
Proof.
  induction s as [o g|o loc l n r ps u IH]; intros size c pre d ip E P W; (destruct d as [|d]; [cbn; eauto|]).
  - assert (c_size c = size) as S.
    { unfold c_size. rewrite E, app_length. pose proof (len_flat size (Bot o g)) as LF. unfold len in *. lia. }
    cbn [nth_error returns untilOutside]. replace (nth_error [] d) with (@None Z) by (destruct d; reflexivity).
    cbn [climb]. unfold unwind. rewrite S. cbn [base_of]. rewrite Z.eqb_refl. reflexivity.
  - destruct (header size c pre o loc l n r ps u E P) as (HL & HR & HB & HT).
    pose proof (len_nonneg _ pre) as N1. pose proof (len_nonneg _ loc) as N2. pose proof (len_nonneg _ ps) as N3. pose proof (len_nonneg _ o) as N4.
    pose proof (slen_pos u) as N5. pose proof (len_nonneg _ (sops_of u)) as N6.
    destruct W as (W1 & W2 & W3).
    assert (c_size c = size) as S.
    { unfold c_size. rewrite E, app_length. pose proof (len_flat size (Frame o loc l n r ps u)) as LF. cbn [slen] in *. unfold len in *. lia. }
    cbn [climb]. unfold unwind. rewrite S. replace (base_of size (Frame o loc l n r ps u) =? size - 1) with false by (cbn [base_of slen] in *; lia).
    rewrite HT. cbn [bind]. cbn [nth_error returns untilOutside]. unfold inside.
    destruct ((r =? RETURN_FROM_FIBER) || (r =? RETURN_FROM_VM)) eqn:RR; cbn [negb].
    + replace (nth_error [] d) with (@None Z) by (destruct d; reflexivity). reflexivity.
    + rewrite HB. cbn [bind].
      set (q := pre ++ o ++ loc ++ [VL l; VZ n; VB (base_of size u); VZ r] ++ ps).
      assert (c_mem c = q ++ flat size u) as EQ. { rewrite E. subst q. cbn [flat]. rewrite <- !app_assoc. reflexivity. }
      assert (len q = size - slen u) as LQ. { subst q. cbn [slen] in *. rewrite !len_app. unfold len in *; cbn [length] in *. lia. }
      exact (IH size c q d r EQ LQ W3).
Qed.
Lemma repr_climb : forall c a d ip, repr c a ->
  match nth_error (ip :: untilOutside (returns (a_stk a))) d with
  | Some r => exists b, climb d c (c_base c) ip = Ok (Some (b, r))
  | None => climb d c (c_base c) ip = Ok None
  end.
Proof.
  intros c a d ip H. apply repr_iff in H as (pre & E & P & T & B & W). rewrite B. apply (climb_ok _ _ _ pre); auto.
Qed.
Lemma reprV_fiber : forall c a x, reprV c a -> getF _ a (vmf _ a) = Ok x -> exists y, getF _ c (vmf _ c) = Ok y /\ reprF y x.
Proof.
  intros c a x (F & _ & V & _) G. rewrite V. unfold getF in *. revert G. generalize (vmf _ a). induction F as [|p q l l' R F IH]; intros [|n] G; cbn [nth_error] in *; try discriminate.
  - destruct q as [q|]; [|discriminate]. injection G as ->. destruct p as [p|]; [|destruct R]. exists p. auto.
  - exact (IH n G).
Qed.
Lemma describe_ok : forall dbg ns ip, known dbg ip -> describe dbg ns ip = Ok (ip, shown ns (place dbg ip)).
Proof.
  intros dbg ns ip (A & B). unfold describe, place. replace (ip <? 0) with false by lia.
  rewrite (nth_error_nth' dbg (MkPos [] [] 0)) by lia. unfold shown, cut. rewrite Nat.sub_1_r. reflexivity.
Qed.
Lemma get_ok : forall dbg c a x d ns, reprV c a -> getF _ a (vmf _ a) = Ok x -> - INT_MAX - 1 < d -> Forall (known dbg) (active x) ->
  getCallStack dbg c d ns = Ok (match nth_error (active x) (Z.to_nat d) with Some ip => Some (ip, shown ns (place dbg ip)) | None => None end).
Proof.
  intros dbg c a x d ns R G D K. destruct (reprV_fiber _ _ _ R G) as (y & GY & (S & I & _)). unfold getCallStack. rewrite GY. cbn [bind].
  replace (d <=? - INT_MAX - 1) with false by lia. rewrite I. pose proof (repr_climb _ _ (Z.to_nat d) (f_ip _ x) S) as C. fold (active x) in C.
  destruct (nth_error (active x) (Z.to_nat d)) as [r|] eqn:N; [|rewrite C; reflexivity].
  destruct C as (b & ->). cbn [bind]. rewrite describe_ok; [reflexivity|]. rewrite Forall_forall in K. apply K. eapply nth_error_In. exact N.
Qed.

(** ** Traces *)
Lemma skipn_cons : forall A (l : list A) d x, nth_error l d = Some x -> skipn d l = x :: skipn (S d) l.
Proof. induction l as [|a l IH]; intros [|d] x H; try discriminate; [injection H as ->; reflexivity|]. cbn [nth_error] in H. cbn [skipn]. rewrite (IH _ _ H). reflexivity. Qed.
Lemma skipn_none : forall A (l : list A) d, nth_error l d = None -> skipn d l = [].
Proof. intros A l d H. apply skipn_all2. apply nth_error_None. exact H. Qed.
Section Traces.
Variables (dbg : list position) (c : vm cstk) (a : vm astk) (x : fiber astk).
Hypothesis R : reprV c a.
Hypothesis G : getF _ a (vmf _ a) = Ok x.
Hypothesis K : Forall (known dbg) (active x).
Lemma traceFrom_ok : forall n d, 0 <= d ->
  traceFrom dbg c d n = Ok (map (fun ip => shown 256 (place dbg ip)) (firstn n (skipn (Z.to_nat d) (active x)))).
Proof.
  induction n as [|n IH]; intros d D; [reflexivity|]. cbn [traceFrom]. unfold rtltrace. rewrite (get_ok dbg c a x d 256 R G); [|unfold INT_MAX, two31; lia|exact K]. cbn [bind].
  destruct (nth_error (active x) (Z.to_nat d)) as [ip|] eqn:N; cbn [bind].
  - rewrite (skipn_cons _ _ _ _ N). rewrite (IH (d + 1)) by lia. replace (Z.to_nat (d + 1)) with (S (Z.to_nat d)) by lia. reflexivity.
  - rewrite (skipn_none _ _ _ N). reflexivity.
Qed.
Lemma printStack_ok : forall ns n d, 0 <= d ->
  printStack dbg c d ns n = Ok (map (fun ip => shown ns (place dbg ip)) (firstn n (skipn (Z.to_nat d) (active x)))).
Proof.
  induction n as [|n IH]; intros d D; [reflexivity|]. cbn [printStack]. rewrite (get_ok dbg c a x d ns R G); [|unfold INT_MAX, two31; lia|exact K]. cbn [bind].
  destruct (nth_error (active x) (Z.to_nat d)) as [ip|] eqn:N; cbn [bind].
  - rewrite (skipn_cons _ _ _ _ N). rewrite (IH (d + 1)) by lia. replace (Z.to_nat (d + 1)) with (S (Z.to_nat d)) by lia. reflexivity.
  - rewrite (skipn_none _ _ _ N). reflexivity.
Qed.
End Traces.

(** ** The return addresses are those of the calls made *)
Lemma returns_same : forall s t, same s t -> returns s = returns t.
Proof. induction s as [|o loc l n r ps u IH]; intros [|o2 loc2 l2 n2 r2 ps2 u2] H; cbn in *; try tauto. destruct H as (_ & _ & _ & -> & _ & H). f_equal. auto. Qed.
Lemma returns_set : forall s o, returns (set_ops s o) = returns s.
Proof. intros [|]; reflexivity. Qed.
Lemma returns_kept : forall s t, kept s t -> returns s = returns t.
Proof. intros s t H. apply returns_same in H. rewrite returns_set in H. exact H. Qed.
Lemma returns_len : forall s, length (returns s) = depth s.
Proof. induction s; cbn; auto. Qed.
Lemma returns_reaches : forall s t, reaches s t -> exists inner, returns s = inner ++ returns t.
Proof.
  induction s as [|o loc l n r ps u IH]; intros t H; cbn [reaches] in H.
  - destruct H as [H|[]]. exists []. symmetry. apply returns_kept. exact H.
  - destruct H as [H|H]; [exists []; symmetry; apply returns_kept; exact H|]. destruct (IH t H) as (i & E). exists (r :: i). cbn [returns app]. f_equal. exact E.
Qed.
Section Chain.
Variable code : Z -> option instr.
Variable ext : nat -> list val -> hostprog.
Lemma entered_chain : forall v v1 v2 f x y l r args rest n total,
  loopf _ v = f -> getF _ v f = Ok x -> code (f_ip _ x) = Some (IEnter l) -> sops_of (a_stk (f_stk _ x)) = VZ r :: args ++ rest -> len args = l_params l ->
  step _ aops code ext v = Ok (Go _ v1) -> within code ext f (S (depth (a_stk (f_stk _ x)))) n v1 v2 total -> getF _ v2 f = Ok y ->
  exists inner, returns (a_stk (f_stk _ y)) = inner ++ r :: returns (a_stk (f_stk _ x)) /\ depth (a_stk (f_stk _ y)) = (length inner + S (depth (a_stk (f_stk _ x))))%nat.
Proof.
  intros v v1 v2 f x y l r args rest n total L G C O LA ST W G2.
  destruct (step_enter code ext _ _ _ _ _ _ _ _ L G C O LA ST) as (L1 & x1 & G1 & S1 & K1).
  set (t := Frame [] (repeat (VZ 0) (Z.to_nat (l_locals l))) l 0 r args (set_ops (a_stk (f_stk _ x)) rest)) in *.
  assert (depth t = S (depth (a_stk (f_stk _ x)))) as DT by (subst t; cbn [depth]; rewrite depth_set; reflexivity).
  rewrite <- DT in W. destruct (within_reaches code ext _ _ _ _ _ t _ W G1) as (y2 & GY & RY & SY); [rewrite K1; destruct t; left; apply kept_refl|].
  rewrite G2 in GY. injection GY as <-. destruct (returns_reaches _ _ RY) as (i & E). exists i. pose proof (returns_len (a_stk (f_stk _ y))) as LL. rewrite E in LL. rewrite E. subst t.
  rewrite app_length in LL. cbn [returns length] in *. rewrite returns_set in *. rewrite returns_len in LL. split; [reflexivity|lia].
Qed.
Lemma call_chain : forall v v1 v2 f x y e l args rest n total,
  loopf _ v = f -> getF _ v f = Ok x ->
  (code (f_ip _ x) = Some (ICall e) \/ (exists k, code (f_ip _ x) = Some (ICallInd k) /\ nth_error (opsOf x) k = Some (VZ e) /\ e <> 0)) ->
  code e = Some (IEnter l) -> opsOf x = args ++ rest -> len args = l_params l -> run _ aops code ext 2 v = Ok (Go _ v1) ->
  within code ext f (S (depth (a_stk (f_stk _ x)))) n v1 v2 total -> getF _ v2 f = Ok y ->
  exists inner, returns (a_stk (f_stk _ y)) = inner ++ f_ip _ x + 1 :: returns (a_stk (f_stk _ x)) /\ depth (a_stk (f_stk _ y)) = (length inner + S (depth (a_stk (f_stk _ x))))%nat.
Proof.
  intros v v1 v2 f x y e l args rest n total L G C CE O LA RUN W G2. subst f. cbn [run] in RUN.
  destruct (step _ aops code ext v) as [s1| |] eqn:ST; cbn [bind] in RUN; try discriminate.
  destruct (step_inv code ext _ _ ST) as (x0 & i & G0 & MF & C0 & _). rewrite G in G0. injection G0 as <-.
  assert (exists w, step _ aops code ext v = Ok (Go _ w) /\ becomes v w (loopf _ v) (fiberAt x (VZ (f_ip _ x + 1) :: opsOf x) e (f_regs _ x)) (hosts _ v)) as (w & STW & B).
  { destruct C as [C|(k & C & N & NZ)]; [exact (call_A code ext v x G MF e C)|exact (callInd_A code ext v x G MF k e C N NZ)]. }
  rewrite ST in STW. injection STW as ->. destruct B as (B1 & B2 & B3 & B4 & B5 & B6).
  destruct (step _ aops code ext w) as [[w2|w2]| |] eqn:ST2; cbn [bind] in RUN; try discriminate. injection RUN as <-.
  destruct (entered_chain w w2 v2 (loopf _ v) _ y l (f_ip _ x + 1) args rest n total B1 B3) as (inner & E & DE); auto.
  - cbn [f_stk fiberAt a_stk]. destruct (a_stk (f_stk _ x)); cbn [set_ops sops_of]; rewrite <- O; reflexivity.
  - cbn [f_stk fiberAt a_stk]. rewrite depth_set. exact W.
  - exists inner. rewrite E, DE. cbn [f_stk fiberAt a_stk]. rewrite returns_set, depth_set. auto.
Qed.
End Chain.

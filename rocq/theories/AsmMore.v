(** The assembly listing: existence, the buffer, the string. *)
From Coq Require Import ZArith Lia Bool List Ascii String.
From Verif Require Import Base AsmModel AsmSpec AsmProofs.
Import ListNotations.
Local Open Scope Z_scope.

Lemma clean_app a b : clean (a ++ b) <-> clean a /\ clean b.
Proof. unfold clean. rewrite in_app_iff. tauto. Qed.
Lemma clean_lit s : forallb (fun c => negb (Ascii.eqb c NUL)) (lit s) = true -> clean (lit s).
Proof.
  intros H K. rewrite forallb_forall in H. apply H in K. now rewrite Ascii.eqb_refl in K.
Qed.
Lemma clean_nil : clean []. Proof. intros []. Qed.
Lemma clean_NL : clean NL. Proof. intros [H|[]]. discriminate H. Qed.
Lemma clean_firstn n s : clean s -> clean (firstn n s).
Proof.
  intros H K. apply H. rewrite <- (firstn_skipn n s). apply in_or_app. auto.
Qed.

Lemma cstr_clean s t : clean s -> cstr (s ++ NUL :: t) = Ok s.
Proof.
  induction s as [|c s IH]; intros H; [reflexivity|]. cbn [cstr app].
  destruct (Ascii.eqb_spec c NUL) as [->|N]; [exfalso; apply H; left; reflexivity|].
  rewrite IH; [reflexivity|]. intros K. apply H. right. exact K.
Qed.

(** * The passes *)
Lemma emit_count c s : 0 <= c -> c + len s <= INT_MAX -> emit None 0 ([], c) s = Ok ([], c + len s).
Proof.
  intros C H. unfold emit, nonnull, nonneg, snprintf. cbn [bind].
  replace (0 - c >? 0) with false by lia. cbn [Z.eqb bind].
  replace (c + len s <=? INT_MAX) with true by lia. reflexivity.
Qed.

Definition image (N : nat) (mem T : text) : Prop :=
  mem = firstn (N - 1) T ++ repeat NUL (N + 1 - Nat.min (List.length T) (N - 1)).

Lemma image_len N mem T : (1 <= N)%nat -> image N mem T -> len mem = Z.of_nat N + 1.
Proof.
  intros H ->. unfold len. rewrite app_length, firstn_length, repeat_length. lia.
Qed.

Lemma print_image N mem T s : (1 <= N)%nat -> image N mem T -> len T + len s <= Z.of_nat N ->
  exists mem', snprintf mem (Some (len T)) (nonneg (Z.of_nat N - len T)) s = Ok mem' /\ image N mem' (T ++ s).
Proof.
  intros HN I H. unfold snprintf, nonneg.
  destruct (Z.of_nat N - len T >? 0) eqn:E.
  - replace (Z.of_nat N - len T =? 0) with false by lia.
    unfold poke. rewrite (image_len N mem T HN I).
    set (x := firstn (Z.to_nat (Z.of_nat N - len T - 1)) s).
    assert (Lx : (List.length x = Nat.min (N - List.length T - 1) (List.length s))%nat).
    { unfold x. rewrite firstn_length. unfold len in *. f_equal. lia. }
    rewrite len_app. change (len [NUL]) with 1.
    replace (len T + (len x + 1) <=? Z.of_nat N + 1) with true by (unfold len in *; lia).
    eexists. split; [reflexivity|]. unfold image in *.
    assert (LT : (List.length T <= N - 1)%nat) by (unfold len in *; lia).
    rewrite firstn_all2 in I by lia. rewrite Nat.min_l in I by lia.
    rewrite I. replace (Z.to_nat (len T)) with (List.length T) by (unfold len; lia).
    rewrite firstn_app, Nat.sub_diag, firstn_all. cbn [firstn]. rewrite app_nil_r.
    rewrite skipn_app. rewrite skipn_all2 by (unfold len in *; lia). cbn [app].
    replace (Z.to_nat (len T + (len x + 1)) - List.length T)%nat with (List.length x + 1)%nat
      by (unfold len; lia).
    rewrite <- app_assoc.
    assert (R : forall n m, (n <= m)%nat -> skipn n (repeat NUL m) = repeat NUL (m - n)).
    { induction n as [|n IHn]; intros [|m] Hm; cbn; auto; try lia. apply IHn. lia. }
    rewrite R by (unfold len in *; lia).
    rewrite firstn_app, (firstn_all2 T) by lia. rewrite <- app_assoc. f_equal.
    replace (firstn (N - 1 - List.length T) s) with x.
    2: { unfold x. f_equal. unfold len. lia. }
    f_equal. cbn [app]. rewrite app_length.
    change (NUL :: repeat NUL (N + 1 - List.length T - (List.length x + 1)))
      with (repeat NUL (S (N + 1 - List.length T - (List.length x + 1)))).
    f_equal. lia.
  - exists mem. split; [reflexivity|].
    assert (s = []) as ->.
    { destruct s; auto. unfold len in *. cbn [List.length] in *. lia. }
    rewrite app_nil_r. exact I.
Qed.

Lemma emit_image N b c mem T s : (1 <= N)%nat -> Z.of_nat N <= INT_MAX -> image N mem T ->
  len T = b + c -> 0 <= b -> 0 <= c -> len T + len s <= Z.of_nat N ->
  exists mem', emit (Some b) (nonneg (Z.of_nat N - b)) (mem, c) s = Ok (mem', c + len s) /\ image N mem' (T ++ s).
Proof.
  intros HN HM I L B C H. unfold emit, nonnull. rewrite (image_len N mem T HN I).
  pose proof (len_nonneg s).
  replace (b + c <=? Z.of_nat N + 1) with true by lia. cbn [bind].
  replace (nonneg (nonneg (Z.of_nat N - b) - c)) with (nonneg (Z.of_nat N - len T)).
  2: { unfold nonneg. destruct (Z.of_nat N - b >? 0) eqn:E1; destruct (Z.of_nat N - len T >? 0) eqn:E2;
       try (destruct (Z.of_nat N - b - c >? 0) eqn:E3); try (destruct (0 - c >? 0) eqn:E4); lia. }
  rewrite <- L. destruct (print_image N mem T s HN I H) as (mem' & -> & I'). cbn [bind].
  replace (c + len s <=? INT_MAX) with true by lia. eauto.
Qed.

Section Asm.
Variables fmtInt fmtReal fmtPtr : Z -> text.
Variable idents : list ident.
Variable code : list instr.
Variable dbg : list debug.
Variable cap : nat.

Notation operand := (operand fmtInt fmtReal fmtPtr idents dbg).
Notation lineOf := (lineOf fmtInt fmtReal fmtPtr idents dbg).
Notation block := (block fmtInt fmtReal fmtPtr idents code dbg).
Notation listing := (listing fmtInt fmtReal fmtPtr idents code dbg).
Notation genAsm := (genAsm fmtInt fmtReal fmtPtr idents code dbg cap).
Notation compilerAsm := (compilerAsm fmtInt fmtReal fmtPtr idents code dbg cap).

Hypothesis WF : wellFormed code dbg cap.

Lemma nth_false n k : nth n (repeat false k) false = false.
Proof. revert n. induction k; intros [|n]; cbn; auto. Qed.

Lemma marks_spec : exists from to,
  marks cap code 0 (repeat false (cap + 1)) (repeat false (cap + 1)) = Ok (from, to) /\
  List.length from = (cap + 1)%nat /\ List.length to = (cap + 1)%nat /\
  (forall n, nth n from false = true <-> exists i, nth_error code n = Some i /\ live code n /\ jump i) /\
  (forall n, nth n to false = true <->
     exists k i, nth_error code k = Some i /\ live code k /\ jump i /\ intVal i = Z.of_nat n).
Proof.
  destruct WF as [H1 H2 H3 H4 _ _ _].
  destruct (marks_ok cap code 0 (repeat false (cap + 1)) (repeat false (cap + 1)))
    as (from & to & E & L1 & L2 & F & T); auto using repeat_length.
  exists from, to. do 3 (split; auto). split; intros n.
  - rewrite F, nth_false. split.
    + intros [X|(k & i & A & B & C & ->)]; [discriminate|]. exists i. auto.
    + intros (i & A & B & C). right. exists n, i. auto.
  - rewrite T, nth_false. split; [intros [X|X]; [discriminate|auto]|auto].
Qed.

(** Each pass. *)
Lemma first_pass s : listing 0 None code dbg s -> len s <= INT_MAX ->
  genAsm [] None 0 = Ok ([], len s).
Proof.
  intros L H. unfold AsmModel.genAsm.
  destruct marks_spec as (from & to & -> & L1 & L2 & F & T). cbn [bind fst snd].
  destruct (lines_ok fmtInt fmtReal fmtPtr idents code dbg (fun _ => None) (fun _ => 0)
      (fun mem _ => mem = []) INT_MAX) with (cap := cap) (from := from) (to := to)
      (c := code) (ds := dbg) (ip := 0%nat) (prev := @None nat) (mem := @nil ascii) (T := @nil ascii)
      (s := s) (pre := @nil instr) as (mem' & E & ->); try reflexivity; try assumption; try lia.
  - intros b c mem T' s' -> HL B C HH. exists []. split; auto. apply emit_count; lia.
  - intros mem T' s' -> HH. exists []. auto.
  - intros mem T' -> HH. split; auto. unfold nonneg. pose proof (len_nonneg T').
    replace (0 - len T' >? 0) with false by lia. reflexivity.
  - apply WF.
  - apply live_0.
Qed.

Lemma second_pass s : listing 0 None code dbg s -> 1 <= len s <= INT_MAX ->
  exists mem, genAsm (repeat NUL (Z.to_nat (len s + 1))) (Some 0) (len s) = Ok (mem, len s) /\
    image (List.length s) mem s.
Proof.
  intros L H. unfold AsmModel.genAsm.
  destruct marks_spec as (from & to & -> & L1 & L2 & F & T). cbn [bind fst snd].
  set (N := List.length s).
  assert (HN : (1 <= N)%nat) by (unfold len in H; unfold N; lia).
  assert (HM : Z.of_nat N <= INT_MAX) by (unfold len in H; unfold N; lia).
  assert (HT : len [] + len s <= Z.of_nat N) by (unfold len, N; cbn; lia).
  destruct (lines_ok fmtInt fmtReal fmtPtr idents code dbg (fun b => Some b)
      (fun b => nonneg (Z.of_nat N - b)) (image N) (Z.of_nat N)) with (cap := cap) (from := from) (to := to)
      (c := code) (ds := dbg) (ip := 0%nat) (prev := @None nat)
      (mem := repeat NUL (Z.to_nat (len s + 1))) (T := @nil ascii)
      (s := s) (pre := @nil instr) as (mem' & E & I); try reflexivity; try assumption; idtac.
  - intros b c mem T' s' I HL B C HH. apply emit_image; auto.
  - intros mem T' s' I HH. apply print_image; auto.
  - intros mem T' I HH. pose proof (len_nonneg T'). split.
    + unfold nonnull. rewrite (image_len N mem T' HN I).
      replace (0 + len T' <=? Z.of_nat N + 1) with true by lia. reflexivity.
    + unfold nonneg. replace (Z.of_nat N - 0 >? 0) with true by lia.
      replace (Z.of_nat N - 0 - len T') with (Z.of_nat N - len T') by lia. reflexivity.
  - apply WF.
  - apply live_0.
  - unfold image. cbn [List.length firstn]. rewrite firstn_nil. cbn [app]. f_equal.
    unfold len. fold N. lia.
  - exists mem'. split; auto.
    assert (nonneg (Z.of_nat N - 0) = len s) as Q.
    { unfold nonneg, len. fold N. replace (Z.of_nat N - 0 >? 0) with true by lia. lia. }
    cbn beta in E. rewrite Q in E. exact E.
Qed.

(** * The text *)
Lemma block_ends ip prev i d s : block ip prev i d s -> exists p, s = p ++ NL.
Proof.
  intros H. destruct H as [m f l e _ _ _ [[_ ->]|[_ ->]]].
  - exists (m ++ f ++ l ++ NL). rewrite <- !app_assoc. reflexivity.
  - exists (m ++ f ++ l). rewrite app_nil_r, <- !app_assoc. reflexivity.
Qed.

Lemma listing_ends ip prev c ds s : listing ip prev c ds s -> exists p, s = p ++ NL.
Proof.
  induction 1 as [ip prev i c d ds s _ B|ip prev i c d ds s t _ B _ [p ->]].
  - eapply block_ends; eauto.
  - exists (s ++ p). now rewrite app_assoc.
Qed.

Hypothesis CT : cleanTexts fmtInt fmtReal fmtPtr idents code dbg.

Lemma clean_at p l s : (forall i, In i l -> clean (iname i)) -> atAddress fmtPtr p l s -> clean s.
Proof.
  intros H A. induction A; auto using clean_firstn.
  - apply clean_firstn. apply CT.
  - apply clean_firstn. apply H. left. reflexivity.
  - apply IHA. intros j J. apply H. right. exact J.
Qed.

Lemma builtin_clean n s : nth_error builtinNames n = Some s -> clean (lit s).
Proof.
  intros H. apply nth_error_In in H.
  assert (F : forallb (fun s => forallb (fun c => negb (Ascii.eqb c NUL)) (lit s)) builtinNames = true)
    by reflexivity.
  rewrite forallb_forall in F. apply F in H. now apply clean_lit.
Qed.

Lemma operand_clean i s : In i code -> operand i s -> clean s.
Proof.
  intros Hi H.
  assert (SP : clean (lit " ")) by (apply clean_lit; reflexivity).
  pose proof (ct_int _ _ _ _ _ _ CT) as CI. pose proof (ct_real _ _ _ _ _ _ CT) as CR.
  pose proof (ct_ptr _ _ _ _ _ _ CT) as CP. pose proof (ct_ident _ _ _ _ _ _ CT) as CD.
  destruct H; rewrite ?clean_app; repeat split; auto using clean_nil;
    try (apply clean_lit; reflexivity); eauto using clean_at, builtin_clean.
  - apply nth_error_In in H1. cbn in H1.
    repeat destruct H1 as [<-|H1]; try (apply clean_lit; reflexivity). destruct H1.
  - apply nth_error_In in H1. now apply (ct_debug _ _ _ _ _ _ CT).
Qed.

Lemma rightIn_clean w c s t : c <> NUL -> clean s -> rightIn w c s t -> clean t.
Proof.
  intros N C (pad & -> & F & _). apply clean_app. split; auto.
  intros K. rewrite Forall_forall in F. apply F in K. congruence.
Qed.

Lemma word_clean o : (forall w, o = Some w -> clean w) -> clean (word o).
Proof.
  intros H. destruct o; cbn [word]; [|apply clean_nil].
  apply clean_app. split; [apply clean_lit; reflexivity|auto].
Qed.

Lemma opName_clean o : clean (lit (opName o)).
Proof. apply clean_lit. destruct o; reflexivity. Qed.

Lemma block_clean ip prev i d s : In i code -> In d dbg -> block ip prev i d s -> clean s.
Proof.
  intros Hi Hd H. destruct H as [m f l e Hm Hf Hl He].
  destruct (ct_debug _ _ _ _ _ _ CT d Hd) as [CF CN].
  destruct (ct_instr _ _ _ _ _ _ CT i Hi) as (W1 & W2 & W3).
  rewrite !clean_app. repeat split; try apply clean_NL.
  - destruct Hm as [[_ ->]|[_ ->]]; [|apply clean_nil].
    rewrite !clean_app. repeat split; auto using clean_NL. apply clean_lit; reflexivity.
  - destruct Hf as [[_ ->]|[_ ->]]; [|apply clean_nil].
    rewrite !clean_app. repeat split; auto using clean_NL. apply clean_lit; reflexivity.
  - destruct Hl as [a b c k s Ha Hb Hc Hk Hs]. rewrite !clean_app.
    assert (SP : clean (lit " ")) by (apply clean_lit; reflexivity).
    repeat split; auto using word_clean.
    + eapply rightIn_clean; [|apply (ct_int _ _ _ _ _ _ CT)|exact Ha]. discriminate.
    + eapply rightIn_clean; [|apply (ct_int _ _ _ _ _ _ CT)|exact Hb]. discriminate.
    + eapply rightIn_clean; [|apply opName_clean|exact Hc]. discriminate.
    + destruct Hk as [[_ ->]|[_ ->]]; [|apply clean_nil]. apply word_clean.
      destruct (kindWord i) as [[kk w]|]; cbn; [|discriminate]. intros w' E. injection E as <-. eauto.
    + eapply operand_clean; eauto.
  - destruct He as [[_ ->]|[_ ->]]; auto using clean_NL, clean_nil.
Qed.

Lemma listing_clean ip prev c ds s : (forall i, In i c -> In i code) -> (forall d, In d ds -> In d dbg) ->
  listing ip prev c ds s -> clean s.
Proof.
  intros Hc Hd L. induction L as [ip prev i c d ds s _ B|ip prev i c d ds s t _ B _ IH].
  - eapply block_clean; [..|exact B]; [apply Hc|apply Hd]; left; reflexivity.
  - apply clean_app. split.
    + eapply block_clean; [..|exact B]; [apply Hc|apply Hd]; left; reflexivity.
    + apply IH; intros; [apply Hc|apply Hd]; right; auto.
Qed.

(** The string that is returned lacks the last newline. *)
Theorem asm_text s p : listing 0 None code dbg s -> s = p ++ NL -> len s + 25 <= INT_MAX ->
  compilerAsm = Ok p.
Proof.
  intros L E H. unfold AsmModel.compilerAsm.
  assert (H1 : 1 <= len s).
  { rewrite E, len_app. change (len NL) with 1. pose proof (len_nonneg p). lia. }
  rewrite (first_pass s L) by lia. cbn [bind fst snd].
  unfold CHUNK. replace (len s + 1 >? INT_MAX) with false by lia.
  replace (24 + (len s + 1) >? INT_MAX) with false by lia.
  destruct (second_pass s L ltac:(lia)) as (mem & -> & I). cbn [bind fst snd].
  assert (I' : mem = p ++ [NUL; NUL]).
  { rewrite I, E, app_length. change (List.length NL) with 1%nat.
    replace (List.length p + 1 - 1)%nat with (List.length p) by lia.
    rewrite firstn_app, firstn_all, Nat.sub_diag. cbn [firstn]. rewrite app_nil_r.
    replace (List.length p + 1 + 1 - Nat.min (List.length p + 1) (List.length p))%nat with 2%nat by lia.
    reflexivity. }
  unfold poke. rewrite I', E, !len_app. change (len NL) with 1. change (len [NUL]) with 1.
  change (len [NUL; NUL]) with 2.
  replace (len p + 1 + 1 <=? len p + 2) with true by lia. cbn [bind].
  replace (Z.to_nat (len p + 1)) with (List.length (p ++ [NUL])) by (rewrite app_length; unfold len; cbn; lia).
  replace (p ++ [NUL; NUL]) with ((p ++ [NUL]) ++ [NUL]) by (rewrite <- app_assoc; reflexivity).
  rewrite firstn_app, firstn_all, Nat.sub_diag. cbn [firstn]. rewrite app_nil_r.
  rewrite <- app_assoc. cbn [app]. apply cstr_clean.
  assert (C : clean s) by (eapply listing_clean; eauto).
  rewrite E in C. apply clean_app in C. tauto.
Qed.

Theorem asm_too_long s : listing 0 None code dbg s -> len s < INT_MAX < len s + 25 ->
  compilerAsm = Err EOther.
Proof.
  intros L H. unfold AsmModel.compilerAsm. rewrite (first_pass s L) by lia. cbn [bind fst snd].
  unfold CHUNK. replace (len s + 1 >? INT_MAX) with false by lia.
  replace (24 + (len s + 1) >? INT_MAX) with true by lia. reflexivity.
Qed.
End Asm.

(** * Existence *)
Lemma opcode_dec (a b : opcode) : {a = b} + {a <> b}.
Proof. decide equality. Qed.

Section Exists.
Variables fmtInt fmtReal fmtPtr : Z -> text.
Variable idents : list ident.
Variable code : list instr.
Variable dbg : list debug.
Variable cap : nat.
Hypothesis WF : wellFormed code dbg cap.

Lemma operand_exists i : In i code -> exists s, operand fmtInt fmtReal fmtPtr idents dbg i s.
Proof.
  intros Hi.
  assert (NM : In (op i) withNumber -> exists s, operand fmtInt fmtReal fmtPtr idents dbg i s).
  { intros K. eexists. eapply op_number. exact K. }
  assert (TW : In (op i) withTwo -> exists s, operand fmtInt fmtReal fmtPtr idents dbg i s).
  { intros K. eexists. eapply op_two. exact K. }
  assert (GL : In (op i) withGlobal -> exists s, operand fmtInt fmtReal fmtPtr idents dbg i s).
  { intros K. eexists. eapply op_global; [exact K|]. apply spell_at. reflexivity. }
  assert (PT : In (op i) withPointer -> exists s, operand fmtInt fmtReal fmtPtr idents dbg i s).
  { intros K. eexists. eapply op_pointer. exact K. }
  assert (RG : In (op i) withRegister -> exists s, operand fmtInt fmtReal fmtPtr idents dbg i s).
  { intros K. pose proof (wf_register _ _ _ WF i Hi K) as B.
    destruct (nth_error regSpelling (Z.to_nat (intVal i))) as [w|] eqn:E.
    - eexists. eapply (op_register _ _ _ _ _ i (Z.to_nat (intVal i))); eauto; lia.
    - apply nth_error_None in E. cbn in E. lia. }
  destruct (in_dec opcode_dec (op i) withNumber) as [|N1]; [auto|].
  destruct (in_dec opcode_dec (op i) withTwo) as [|N2]; [auto|].
  destruct (in_dec opcode_dec (op i) withGlobal) as [|N3]; [auto|].
  destruct (in_dec opcode_dec (op i) withPointer) as [|N4]; [auto|].
  destruct (in_dec opcode_dec (op i) withRegister) as [|N5]; [auto|].
  clear NM TW GL PT RG.
  destruct (opcode_dec (op i) P_PUSH) as [O|N6];
    [|destruct (opcode_dec (op i) P_CALL) as [O|N7];
      [|destruct (opcode_dec (op i) P_CALL_BUILTIN) as [O|N8]]].
  - destruct (kindWord i) as [[[] w]|] eqn:K.
    + eexists. eapply op_push_ptr; eauto. apply spell_at. reflexivity.
    + eexists. eapply op_push_real; eauto.
    + eexists. apply op_push; auto. intros k w' E. congruence.
    + eexists. apply op_push; auto. intros k w' E. congruence.
  - pose proof (wf_call _ _ _ WF i Hi O) as B.
    destruct (nth_error dbg (Z.to_nat (intVal i))) as [d|] eqn:E.
    + eexists. eapply (op_call _ _ _ _ _ i (Z.to_nat (intVal i))); eauto; lia.
    + apply nth_error_None in E. lia.
  - pose proof (wf_builtin _ _ _ WF i Hi O) as B.
    destruct (nth_error builtinNames (Z.to_nat (intVal i))) as [w|] eqn:E.
    + eexists. eapply (op_builtin _ _ _ _ _ i (Z.to_nat (intVal i))); eauto; lia.
    + apply nth_error_None in E. cbn in E. lia.
  - eexists. apply op_none. rewrite !in_app_iff. intros [K|[K|[K|[K|[K|K]]]]]; try contradiction.
    destruct K as [K|[K|[K|[]]]]; congruence.
Qed.

Lemma when_exists (P : Prop) s : P \/ ~ P -> exists t, when P s t.
Proof. intros [H|H]; [exists s|exists []]; unfold when; auto. Qed.

Lemma separated_dec ip i : nth_error code ip = Some i -> live code ip ->
  separated code ip i \/ ~ separated code ip i.
Proof.
  intros E L. destruct (marks_spec code dbg cap WF) as (from & to & _ & _ & _ & F & T).
  unfold separated.
  destruct (opcode_dec (op i) P_RETURN); [auto|].
  destruct (isJump (op i)) eqn:J; [apply isJump_jump in J; auto|].
  assert (~ jump i) by (rewrite <- isJump_jump; congruence).
  destruct (nth (S ip) to false) eqn:B.
  - apply T in B. auto.
  - right. intros [X|[X|X]]; try contradiction. apply T in X. congruence.
Qed.

Lemma block_exists ip prev i d : nth_error code ip = Some i -> live code ip ->
  exists s, block fmtInt fmtReal fmtPtr idents code dbg ip prev i d s.
Proof.
  intros E L.
  destruct (when_exists (prev <> Some (fileAddr d)) (NL ++ lit "Module: " ++ fileName d ++ NL ++ NL)) as [m Hm].
  { destruct prev as [a|]; [|left; discriminate].
    destruct (Nat.eq_dec a (fileAddr d)) as [->|N]; [right; tauto|left; congruence]. }
  destruct (when_exists (op i = P_ENTER_FRAME) (NL ++ lit "Function: " ++ fnName d ++ NL ++ NL)) as [f Hf].
  { destruct (opcode_dec (op i) P_ENTER_FRAME); auto. }
  destruct (when_exists _ NL (separated_dec ip i E L)) as [e He].
  destruct (when_exists (typeWord i = None \/ op i = P_ASSERT_RANGE \/ op i = P_GET_MAP)
              (word (option_map snd (kindWord i)))) as [k Hk].
  { destruct (typeWord i); [|auto]. destruct (opcode_dec (op i) P_ASSERT_RANGE); [auto|].
    destruct (opcode_dec (op i) P_GET_MAP); [auto|]. right. intuition discriminate. }
  destruct (operand_exists i) as [s Hs]; [eapply nth_error_In; eauto|].
  eexists. eapply block_of; eauto. eapply line_of; eauto; apply rightIn_pad; reflexivity.
Qed.

Theorem listing_exists : exists s, listing fmtInt fmtReal fmtPtr idents code dbg 0 None code dbg s.
Proof.
  assert (G : forall c ds ip prev pre, code = pre ++ c -> List.length pre = ip -> live code ip ->
    (exists i, In i c /\ op i = P_HALT) -> (List.length c <= List.length ds)%nat ->
    exists s, listing fmtInt fmtReal fmtPtr idents code dbg ip prev c ds s).
  { induction c as [|i c IH]; intros ds ip prev pre EC EP L (h & Hh & HO) HL; [destruct Hh|].
    destruct ds as [|d ds]; [cbn in HL; lia|].
    assert (HI : nth_error code ip = Some i).
    { rewrite EC, nth_error_app2, EP, Nat.sub_diag by lia. reflexivity. }
    destruct (block_exists ip prev i d HI L) as [s B].
    destruct (opcode_dec (op i) P_HALT) as [Y|N].
    - exists s. now apply li_halt.
    - destruct Hh as [<-|Hh]; [contradiction|].
      destruct (IH ds (S ip) (Some (fileAddr d)) (pre ++ [i])) as [t Ht]; eauto.
      + rewrite <- app_assoc. exact EC.
      + rewrite app_length. cbn. lia.
      + intros k j K E. destruct (Nat.eq_dec k ip) as [->|]; [congruence|]. apply (L k); auto. lia.
      + cbn in HL. lia.
      + exists (s ++ t). now apply li_more. }
  apply (G code dbg 0%nat None []); auto using live_0; apply WF.
Qed.
End Exists.

From Coq Require Import ZArith List Bool String Ascii Arith Lia Permutation.
From Verif Require Import Base ImportModel ImportSpec ImportProofs.
Import ListNotations.

Section P.
  Variable w : world.
  Variables (main : string) (mainText : list item).
  Hypothesis cons : consistent w main mainText.

  Definition pathAt (s : state) (j : nat) : option string := option_map mpath (nth_error (modules s) j).

  (** The paths in the order in which the declarations were compiled. *)
  Definition bodies (s : state) : list (option string) := map (pathAt s) (compiled s).

  Lemma all_reach s : parseProgram w main mainText = Ok s ->
    forall j m, nth_error (modules s) j = Some m -> isCompiled m = true -> reach w main mainText (mpath m).
  Proof.
    intros H j m N C. destruct (program_sound _ _ _ cons _ H) as (I & _).
    destruct I as (_ & _ & _ & _ & R & _ & mu & N0 & _ & C0). apply (R j m N).
    intros ->. congruence.
  Qed.

  Lemma bodies_once s : parseProgram w main mainText = Ok s ->
    NoDup (bodies s) /\
    (forall k, In (Some k) (bodies s) <-> reach w main mainText k) /\
    (forall x, In x (bodies s) -> x <> None).
  Proof.
    intro H. pose proof (all_reach _ H) as AR.
    destruct (program_sound _ _ _ cons _ H) as (I & m & new & u & E & P & C & F).
    pose proof I as (NP & D & CC & NC & R & _).
    split; [|split].
    - unfold bodies.
      assert (INJ : forall a b, In a (compiled s) -> In b (compiled s) -> pathAt s a = pathAt s b -> a = b).
      { intros a b A B. destruct (CC a A) as (ma & NA & _). destruct (CC b B) as (mb & NB & _).
        unfold pathAt. rewrite NA, NB. cbn. intro Q. inversion Q. eapply nth_path_inj; eauto. }
      revert NC INJ. generalize (compiled s) as l. clear. induction l as [|a l IH]; cbn; intros N INJ; [constructor|].
      inversion N; subst. constructor.
      + intro Q. apply in_map_iff in Q. destruct Q as (b & Q & B). apply H1.
        rewrite (INJ a b); auto.
      + apply IH; auto.
    - intro k. split.
      + intro Q. apply in_map_iff in Q. destruct Q as (j & Q & J). destruct (CC j J) as (mj & NJ & CJ).
        unfold pathAt in Q. rewrite NJ in Q. cbn in Q. inversion Q. eapply AR; eauto.
      + intro RK. assert (HM : exists j m, nth_error (modules s) j = Some m /\ isCompiled m = true /\ mpath m = main).
        { exists 1, m. rewrite E. auto. }
        destruct (reach_compiled _ _ _ s I HM k RK) as (j & mj & NJ & CJ & PJ).
        destruct (D _ _ NJ CJ) as (? & ? & _ & _ & IC & _).
        apply in_map_iff. exists j. split; [|exact IC]. unfold pathAt. now rewrite NJ, <- PJ.
    - intros x X. apply in_map_iff in X. destruct X as (j & <- & J). destruct (CC j J) as (mj & NJ & _).
      unfold pathAt. rewrite NJ. discriminate.
  Qed.

  (** Whatever a module imports is compiled before it. *)
  Lemma bodies_order s m k : parseProgram w main mainText = Ok s ->
    reach w main mainText m -> imports w main mainText m k ->
    exists x y, x < y /\ nth_error (bodies s) x = Some (Some k) /\ nth_error (bodies s) y = Some (Some m).
  Proof.
    intros H R IM.
    destruct (program_sound _ _ _ cons _ H) as (I & mm & new & u & E & P & C & F).
    assert (HM : exists j m, nth_error (modules s) j = Some m /\ isCompiled m = true /\ mpath m = main).
    { exists 1, mm. rewrite E. auto. }
    destruct (reach_compiled _ _ _ s I HM m R) as (j & mj & NJ & CJ & PJ). rewrite <- PJ in IM.
    destruct (import_before _ _ _ _ _ _ _ I NJ CJ IM) as (i & mk & NK & CK & PK & x & y & L & X & Y).
    exists x, y. split; [exact L|]. unfold bodies. rewrite !nth_error_map, X, Y. cbn.
    unfold pathAt. rewrite NK, NJ. cbn. split; congruence.
  Qed.

  (** The name of an import stands for the module imported. *)
  Lemma names_resolved s m ts it a k : parseProgram w main mainText = Ok s ->
    reach w main mainText m -> textOf w main mainText m = Some ts -> In it ts ->
    target w m (text it) = Some k -> knownAs w m it = Some a ->
    exists j i, pathAt s j = Some m /\ pathAt s i = Some k /\ moduleFindImported s j a = Some i.
  Proof.
    intros H R T IT TK KA.
    destruct (program_sound _ _ _ cons _ H) as (I & mm & new & u & E & P & C & F).
    assert (HM : exists j m, nth_error (modules s) j = Some m /\ isCompiled m = true /\ mpath m = main).
    { exists 1, mm. rewrite E. auto. }
    destruct (reach_compiled _ _ _ s I HM m R) as (j & mj & NJ & CJ & PJ).
    pose proof I as (NP & D & _).
    destruct (D _ _ NJ CJ) as (ts' & L & T' & (A & B & F2 & CC & DD & G) & _).
    rewrite PJ in *. assert (ts' = ts) by congruence. subst ts'.
    destruct (Forall2_in_l _ _ _ _ _ _ F2 IT) as ([i a'] & IL & mk & NK & CK & TK' & KA' & _).
    cbn [fst snd] in *. assert (a' = a) by congruence. subst a'.
    assert (PK : mpath mk = k) by congruence.
    exists j, i. unfold pathAt. rewrite NJ, NK. cbn. split; [congruence|]. split; [congruence|].
    unfold moduleFindImported. rewrite NJ.
    assert (NK1 : NoDup (map fst (importAlias mj))).
    { rewrite CC, map_app, map_rev. cbn. now apply nodup_rev_app. }
    assert (NS : NoDup (map snd (importAlias mj))).
    { rewrite CC, map_app, map_rev. cbn. now apply nodup_rev_app. }
    assert (IA : In (i, a) (importAlias mj)).
    { rewrite CC. apply in_or_app. left. now rewrite <- in_rev. }
    destruct (find _ _) as [i'|] eqn:FD.
    - apply find_some in FD. destruct FD as (_ & FD). destruct (aliasAt mj i') as [b|] eqn:AA; [|discriminate].
      apply String.eqb_eq in FD. subst b. apply aliasAt_in in AA. f_equal.
      (* two entries of one name are the same *)
      clear - NS IA AA. revert NS IA AA. generalize (importAlias mj) as l.
      induction l as [|[x b] l IH]; cbn; [intros _ []|]. intros N [Q|Q] [Q'|Q'].
      + congruence.
      + inversion N; subst. inversion Q; subst. exfalso. apply H1. apply in_map_iff. exists (i', a). auto.
      + inversion N; subst. inversion Q'; subst. exfalso. apply H1. apply in_map_iff. exists (i, a). auto.
      + inversion N; subst. auto.
    - exfalso. assert (J : In i (seq 0 (len (modules s)))).
      { apply in_seq. split; [lia|]. cbn. apply nth_error_Some. congruence. }
      pose proof (find_none _ _ FD i J) as Q. cbn in Q. rewrite (aliasAt_key _ _ _ NK1 IA) in Q.
      now rewrite String.eqb_refl in Q.
  Qed.
End P.

(** ** The compiler ends, whatever it is given *)

Lemma update_length i f ms : len (update i f ms) = len ms.
Proof. revert i. induction ms as [|m ms IH]; intros [|i]; cbn; auto. Qed.

Definition sane (s : state) (x : outcome (nat * state)) : Prop :=
  match x with
  | Ok (i, s') => len (modules s) <= len (modules s') /\ i < len (modules s')
  | Err EFuel => False
  | Err _ => True
  | UB => False
  end.

Definition sane1 (s : state) (x : outcome state) : Prop :=
  match x with
  | Ok s' => len (modules s) <= len (modules s')
  | Err EFuel => False
  | Err _ => True
  | UB => False
  end.

Lemma item_sane w load i mp it s :
  i < len (modules s) -> (forall p ts, sane s (load p ts s)) -> sane1 s (parseImportItem w load i mp it s).
Proof.
  intros L LS. unfold parseImportItem.
  destruct (locate w mp (text it)) as [[p src]|]; [|exact I].
  destruct (nameOf w p) as [name|]; [|exact I].
  destruct (moduleFindImported _ _ _); [exact I|].
  match goal with |- sane1 s (bind ?x ?f) => assert (SX : sane s x) end.
  { destruct (moduleFind s p) as [k|] eqn:E.
    - destruct (moduleFind_some _ _ _ E) as (m & N & _). split; [lia|]. apply nth_error_Some. congruence.
    - destruct src; [apply LS|]. destruct (file w p); [apply LS|exact I]. }
  match goal with |- sane1 s (bind ?x ?f) => destruct x as [[k s1]|e|] end; cbn in *;
    [|destruct e; auto|contradiction].
  destruct SX as (L1 & L2).
  destruct (nth_error (modules s1) k) eqn:N1; [|apply nth_error_None in N1; lia].
  destruct (nth_error (modules s1) i) eqn:N2; [|apply nth_error_None in N2; lia].
  destruct (negb _); [exact I|]. destruct (aliasAt _ _); [exact I|].
  cbn. rewrite update_length. exact L1.
Qed.

Lemma import_sane w load i mp : forall its s,
  i < len (modules s) ->
  (forall s' p ts, len (modules s) <= len (modules s') -> sane s' (load p ts s')) ->
  sane1 s (parseImport w load i mp its s).
Proof.
  induction its as [|it its IH]; intros s L LS; cbn; [lia|].
  pose proof (item_sane w load i mp it s L (fun p ts => LS s p ts (le_n _))) as Q.
  destruct (parseImportItem w load i mp it s) as [s1|e|]; cbn in *; [|destruct e; auto|contradiction].
  assert (S1 : sane1 s1 (parseImport w load i mp its s1)).
  { apply IH; [lia|]. intros s' p ts L'. apply LS. lia. }
  destruct (parseImport w load i mp its s1) as [s2|e|]; cbn in *; [lia|exact S1|exact S1].
Qed.

Lemma module_sane w : forall n p ts s, MAX_MODULES < n + len (modules s) -> len (modules s) <= MAX_MODULES ->
  sane s (parseModule w n p ts s).
Proof.
  enough (G : forall n p ts s, MAX_MODULES < n + len (modules s) -> 0 < n -> sane s (parseModule w n p ts s)).
  { intros n p ts s H L. apply G; lia. }
  induction n as [|n IH]; intros p ts s H HN; [lia|]. cbn [parseModule].
  assert (A : match moduleAdd w p s with
              | Ok (i, s1) => i = len (modules s) /\ len (modules s1) = S (len (modules s)) /\ len (modules s) < MAX_MODULES
              | Err EFuel => False | Err _ => True | UB => False end).
  { unfold moduleAdd. destruct (Nat.leb_spec MAX_MODULES (len (modules s))); [exact I|].
    destruct (nameOf w p); [|exact I]. destruct (hasBlank _); [exact I|]. destruct (moduleFind s p); [exact I|].
    cbn [modules]. rewrite app_length. cbn [List.length]. split; [reflexivity|]. split; lia. }
  destruct (moduleAdd w p s) as [[i s1]|e|]; cbn [bind]; [|destruct e; auto|contradiction].
  destruct A as (-> & L1 & LM).
  assert (Q : sane1 s1 (parseImport w (parseModule w n) (len (modules s)) p ts s1)).
  { apply import_sane; [lia|]. intros s' p' ts' L'. apply IH; lia. }
  destruct (parseImport w (parseModule w n) (len (modules s)) p ts s1) as [s2|e|]; cbn [bind sane1 sane] in *;
    [|exact Q|contradiction].
  cbn [finish modules]. rewrite update_length. lia.
Qed.

Lemma program_ends w p ts : parseProgram w p ts <> Err EFuel /\ parseProgram w p ts <> UB.
Proof.
  pose proof (module_sane w (S MAX_MODULES) p ts init) as Q. unfold parseProgram.
  assert (S1 : sane init (parseModule w (S MAX_MODULES) p ts init)).
  { apply Q; cbn [modules init List.length]; [lia|]. unfold MAX_MODULES. lia. }
  destruct (parseModule w (S MAX_MODULES) p ts init) as [[i s]|e|]; cbn [bind sane] in *; [|destruct e; try contradiction|contradiction];
    split; discriminate.
Qed.

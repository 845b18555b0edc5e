(** More proofs about identifiers: whole programs, unambiguous scopes, closed blocks. *)
From Coq Require Import ZArith Lia Bool ZifyBool List String.
From Verif Require Import Base IdModel IdSpec IdProofs.
Import ListNotations.
Local Open Scope Z_scope.

Lemma init_R : R init ainit.
Proof.
  constructor; cbn [items idents scopes temps nid anid acur cur mods paths done imps init ainit numBlocks map].
  - apply (RS_bot false []). constructor.
  - cbn [topb]. lia.
  - constructor.
  - constructor.
  - reflexivity.
  - reflexivity.
  - lia.
  - split; [reflexivity|]. split.
    + intros m al j. split.
      * intros [E|[]]. injection E as <- <- <-. eexists. split; [lia|]. split; [reflexivity|]. left. reflexivity.
      * intros (x & M & N & I). destruct (Z.to_nat m) as [|k] eqn:K; [|destruct k; discriminate]. assert (m = 0) by lia. subst m.
        cbn [nth_error] in N. injection N as <-. destruct I as [I|[]]. injection I as <- <-. left. reflexivity.
    + intros m. split; [intros []|]. intros (x & M & N & I). destruct (Z.to_nat m) as [|k]; [|destruct k; discriminate].
      cbn [nth_error] in N. injection N as <-. discriminate.
  - cbn [List.length]. lia.
Qed.

Section PROG.
  Variable compatFn : nat -> nat -> bool.
  Variable nameOf : string -> option string.

  Definition plainU (u : list (ikind * string * ity * bool)) : Prop :=
    Forall (fun x => plainType (fst (fst (fst x))) (snd (fst x)) = true) u.

  Lemma all_thm : forall u s a, R s a -> plainU u ->
    match IdSpec.declareAll compatFn u a with
    | Ok a' => exists s', IdModel.declareAll compatFn u s = Ok s' /\ R s' a' /\ Fr s s' 0
    | Err e => IdModel.declareAll compatFn u s = Err e
    | UB => False
    end.
  Proof.
    induction u as [|[[[k nm] t] e] r IH]; intros s a RR P; cbn [IdSpec.declareAll IdModel.declareAll].
    - exists s. split; [reflexivity|]. split; [exact RR|]. apply Fr_refl. lia.
    - inversion P as [|x y P1 P2]; subst x y. cbn [fst snd] in P1. pose proof (decl_sim compatFn s a k nm t e RR P1) as D.
      destruct (declare compatFn a k nm t e false 0) as [[a1 id]|er|]; cbn [bind fst] in *.
      + destruct (identAdd compatFn s k (NUser nm) t e 0) as [[s1 id1]|er|]; cbn [bind fst] in D; destruct D as (s' & E & R1 & F1); try discriminate.
        injection E as <-. specialize (IH s1 a1 R1 P2). cbn [bind fst]. destruct (IdSpec.declareAll compatFn r a1) as [a2|er|]; [|exact IH|exact IH].
        destruct IH as (s2 & E2 & R2 & F2). exists s2. split; [exact E2|]. split; [exact R2|]. apply (Fr_trans _ _ _ 0 0 F1 F2).
      + destruct (identAdd compatFn s k (NUser nm) t e 0) as [[s1 id1]|er1|]; cbn [bind fst] in *; try discriminate. injection D as ->. reflexivity.
      + exact D.
  Qed.

  Lemma prog_thm : forall u path body, plainU u -> plain body = true -> blocksOf body < INT_MAX ->
    match meaning compatFn nameOf u path body with
    | Ok (a, out) => exists s, compile compatFn nameOf u path body = Ok (s, out) /\ R s a
    | Err e => compile compatFn nameOf u path body = Err e
    | UB => False
    end.
  Proof.
    intros u path body PU PB BB. unfold meaning, compile. pose proof (all_thm u _ _ init_R PU) as A.
    destruct (IdSpec.declareAll compatFn u ainit) as [a1|e|]; cbn [bind]; [|rewrite A; reflexivity|exact A].
    destruct A as (s1 & E1 & R1 & F1). rewrite E1. cbn [bind].
    pose proof (moduleAdd_thm nameOf s1 a1 path R1) as MA. destruct (addModule nameOf a1 path) as [[a2 m]|e|]; cbn [bind fst snd]; [|rewrite MA; reflexivity|exact MA].
    destruct MA as (ms & E2 & M & LM & R2). rewrite E2. cbn [bind fst snd].
    assert (R3 : R (with_cur (with_mods s1 ms) m) (with_acur a2 m)).
    { destruct R2. constructor; cbn [items idents scopes numBlocks temps nid cur mods with_mods with_cur with_acur anid acur paths done imps] in *; try assumption; try reflexivity. lia. }
    pose proof (f_nb _ _ _ F1). pose proof (f_temps _ _ _ F1). cbn [numBlocks temps init] in *.
    pose proof (sim compatFn nameOf body _ _ R3 PB ltac:(cbn [numBlocks with_cur with_mods]; lia) ltac:(cbn [temps with_cur with_mods]; lia)) as SM.
    destruct (sem compatFn nameOf body (with_acur a2 m)) as [[a3 o3]|e|]; [|exact SM|exact SM]. destruct SM as (s3 & E3 & R4 & _). exists s3. auto.
  Qed.

  (** ** Closed blocks *)

  Lemma declare_tl : forall a k nm t ex o v a' id, declare compatFn a k nm t ex o v = Ok (a', id) -> tl (scopes a') = tl (scopes a).
  Proof.
    intros a k nm t ex o v a' id H. unfold declare in H. destruct (scopes a) as [|[fn ds] r]; [discriminate|].
    destruct (List.find _ ds) as [d|].
    - destruct (completes compatFn d k t ex); cbn [bind] in H; [injection H as <- <-; reflexivity|discriminate..].
    - destruct (allowed a k t ex); cbn [bind] in H; [injection H as <- <-; reflexivity|discriminate..].
  Qed.

  Lemma import_tl : forall a m al a', import compatFn a m al = Ok a' -> tl (scopes a') = tl (scopes a).
  Proof.
    intros a m al a' H. unfold import in H. destruct (negb _); [discriminate|]. destruct (importedb _ _ _); [discriminate|].
    destruct (declare _ _ _ _ _ _ _ _) as [[a1 id]|e|] eqn:D; cbn [bind fst] in H; try discriminate. injection H as <-.
    apply declare_tl in D. exact D.
  Qed.

  Lemma sem_tl : forall c a a' out, sem compatFn nameOf c a = Ok (a', out) -> tl (scopes a') = tl (scopes a) /\ acur a' = acur a.
  Proof.
    assert (DC : forall a k nm t ex o v a' id, declare compatFn a k nm t ex o v = Ok (a', id) -> acur a' = acur a).
    { intros a k nm t ex o v a' id H. unfold declare in H. destruct (scopes a) as [|[fn ds] r]; [discriminate|].
      destruct (List.find _ ds) as [d|].
      - destruct (completes compatFn d k t ex); cbn [bind] in H; [injection H as <- <-; reflexivity|discriminate..].
      - destruct (allowed a k t ex); cbn [bind] in H; [injection H as <- <-; reflexivity|discriminate..]. }
    assert (IC : forall a m al a', import compatFn a m al = Ok a' -> acur a' = acur a).
    { intros a m al a' H. unfold import in H. destruct (negb _); [discriminate|]. destruct (importedb _ _ _); [discriminate|].
      destruct (declare _ _ _ _ _ _ _ _) as [[a1 id]|e|] eqn:D; cbn [bind fst] in H; try discriminate. injection H as <-. apply DC in D. exact D. }
    assert (D1 : forall a k nm t ex a' out, (let* x := declare compatFn a k nm t ex false 0 in Ok (fst x, @nil res)) = Ok (a', out) -> tl (scopes a') = tl (scopes a) /\ acur a' = acur a).
    { intros a k nm t ex a' out H. destruct (declare _ _ _ _ _ _ _ _) as [[a1 id]|e|] eqn:D; cbn [bind fst] in H; try discriminate. injection H as <- <-.
      split; [eapply declare_tl; exact D|eapply DC; exact D]. }
    induction c as [|c1 IH1 c2 IH2|k nm t ex|nm rc sg ex proto|isC t|nm t ex|c1 IH1|nm bs|q nm|m nm rc|m nm|fn c1 IH1|t c1 IH1 c2 IH2|path al body IH];
      intros a a' out H; cbn [sem] in H.
    - injection H as <- <-. auto.
    - destruct (sem _ _ c1 a) as [[a1 o1]|e|] eqn:E1; cbn [bind fst snd] in H; try discriminate.
      destruct (sem _ _ c2 a1) as [[a2 o2]|e|] eqn:E2; cbn [bind fst snd] in H; try discriminate. injection H as <- <-.
      apply IH1 in E1. apply IH2 in E2. destruct E1, E2. split; congruence.
    - eapply D1; exact H.
    - destruct (1 <? List.length (scopes a))%nat; [discriminate|]. destruct (declare _ _ _ _ _ _ _ _) as [[a1 id]|e|] eqn:D; cbn [bind fst snd] in H; try discriminate.
      injection H as <- <-. pose proof (DC _ _ _ _ _ _ _ _ _ D) as D2. apply declare_tl in D. unfold setOpen. destruct (scopes a1) as [|[fn ds] r] eqn:SE; [rewrite SE; auto|]. cbn [scopes with_scopes tl acur] in *. auto.
    - destruct (tempOk t); cbn [bind] in H; try discriminate. injection H as <- <-. auto.
    - destruct (lookup a _) as [[[|n] d]|]; [destruct (ikind_eqb (dk d) IVar); [injection H as <- <-; auto|]| |]; eapply D1; exact H.
    - destruct (sem _ _ c1 a) as [[a1 o1]|e|] eqn:E1; cbn [bind fst snd] in H; try discriminate. destruct (existsb _ (scopes a1)); [discriminate|]. injection H as <- <-. eapply IH1; exact E1.
    - destruct (lookup a _) as [x|]; [injection H as <- <-; auto|]. destruct (declare _ _ _ _ _ _ _ _) as [[a1 id]|e|] eqn:D; cbn [bind fst] in H; try discriminate. injection H as <- <-.
      split; [eapply declare_tl; exact D|eapply DC; exact D].
    - injection H as <- <-. auto.
    - injection H as <- <-. auto.
    - injection H as <- <-. auto.
    - unfold push in H. destruct (100 <=? List.length (scopes a))%nat; [discriminate|]. cbn [bind] in H. destruct (sem _ _ c1 _) as [[a1 o1]|e|] eqn:E1; cbn [bind fst snd] in H; try discriminate.
      injection H as <- <-. apply IH1 in E1. cbn [scopes pop with_scopes tl acur] in *. destruct E1 as [E1 E2]. rewrite E1. auto.
    - unfold push in H. destruct (100 <=? List.length (scopes a))%nat; [discriminate|]. cbn [bind] in H. destruct (sem _ _ c1 _) as [[a1 o1]|e|] eqn:E1; cbn [bind fst snd] in H; try discriminate.
      destruct (match t with Some ty => tempOk ty | None => Ok tt end); cbn [bind] in H; try discriminate.
      destruct (100 <=? List.length (scopes (pop a1)))%nat; [discriminate|]. cbn [bind] in H. destruct (sem _ _ c2 _) as [[a2 o2]|e|] eqn:E2; cbn [bind fst snd] in H; try discriminate.
      injection H as <- <-. apply IH1 in E1. apply IH2 in E2. cbn [scopes pop with_scopes tl acur] in *. destruct E1 as [E1 C1], E2 as [E2 C2]. split; congruence.
    - destruct (match al with Some al0 => Some al0 | None => nameOf path end) as [alias|]; [|discriminate]. destruct (existsb _ (imps a)); [discriminate|].
      destruct (indexFrom (paths a) 0 path) as [m|].
      + destruct (import compatFn a m alias) as [a1|e|] eqn:I; cbn [bind] in H; try discriminate. injection H as <- <-. split; [eapply import_tl|eapply IC]; exact I.
      + destruct (addModule nameOf a path) as [[a1 m]|e|] eqn:AM; cbn [bind fst snd] in H; try discriminate.
        destruct (sem _ _ body _) as [[a2 o2]|e|] eqn:E2; cbn [bind fst snd] in H; try discriminate.
        destruct (import compatFn _ m alias) as [a3|e|] eqn:I; cbn [bind] in H; try discriminate. injection H as <- <-.
        pose proof (IC _ _ _ _ I) as I2. apply import_tl in I. apply IH in E2. cbn [scopes acur with_acur] in *.
        assert (scopes a1 = scopes a).
        { unfold addModule in AM. destruct (1024 <=? _)%nat; [discriminate|]. destruct (nameOf path); [|discriminate]. destruct (indexFrom _ _ _); [discriminate|]. injection AM as <- <-. reflexivity. }
        destruct E2. split; congruence.
  Qed.

  (** The scopes around a block are as they were before it. *)
  Lemma block_closed : forall fn c a a' out, sem compatFn nameOf (CBlock fn c) a = Ok (a', out) -> scopes a' = scopes a.
  Proof.
    intros fn c a a' out H. cbn [sem] in H. unfold push in H. destruct (100 <=? List.length (scopes a))%nat; [discriminate|]. cbn [bind] in H.
    destruct (sem _ _ c _) as [[a1 o1]|e|] eqn:E1; cbn [bind fst snd] in H; try discriminate. injection H as <- <-. apply sem_tl in E1.
    cbn [scopes pop with_scopes tl acur] in *. exact (proj1 E1).
  Qed.
  Lemma tern_closed : forall t c1 c2 a a' out, sem compatFn nameOf (CTern t c1 c2) a = Ok (a', out) -> scopes a' = scopes a.
  Proof.
    intros t c1 c2 a a' out H. cbn [sem] in H. unfold push in H. destruct (100 <=? List.length (scopes a))%nat; [discriminate|]. cbn [bind] in H.
    destruct (sem _ _ c1 _) as [[a1 o1]|e|] eqn:E1; cbn [bind fst snd] in H; try discriminate. apply sem_tl in E1.
    destruct (match t with Some ty => tempOk ty | None => Ok tt end); cbn [bind] in H; try discriminate.
    destruct (100 <=? List.length (scopes (pop a1)))%nat; [discriminate|]. cbn [bind] in H. destruct (sem _ _ c2 _) as [[a2 o2]|e|] eqn:E2; cbn [bind fst snd] in H; try discriminate.
    injection H as <- <-. apply sem_tl in E2. cbn [scopes pop with_scopes tl acur] in *. destruct E1, E2. congruence.
  Qed.

  (** ** Unambiguous scopes *)

  Record Inv (a : ast) : Prop := {
    i_un : unambiguous a;
    i_ids : Forall (fun s => Forall (fun d => did d < anid a) (snd s) /\ NoDup (map did (snd s))) (scopes a);
    i_univ : acur a = 0 -> Forall (fun s => Forall (fun d => dmod d = 0) (snd s)) (scopes a);
    i_pos : 0 <= acur a /\ (1 <= List.length (paths a))%nat
  }.

  Lemma rcv_eqb_eq : forall x y, rcv_eqb x y = true <-> x = y.
  Proof. intros [x|] [y|]; cbn [rcv_eqb]; split; intros H; try discriminate; try reflexivity. - f_equal. lia. - injection H as ->. lia. Qed.
  Lemma ikind_eqb_eq : forall x y, ikind_eqb x y = true <-> x = y.
  Proof. intros [] []; cbn [ikind_eqb]; split; intros H; try discriminate; reflexivity. Qed.
  Lemma importedb_iff : forall a m j, importedb a m j = true <-> imported a m j.
  Proof.
    intros a m j. unfold importedb, imported. rewrite existsb_exists. split.
    - intros ([[m1 al] j1] & I & E). cbn [fst snd] in E. apply andb_true_iff in E. exists al. replace m with m1 by lia. replace j with j1 by lia. exact I.
    - intros (al & I). eexists. split; [exact I|]. cbn [fst snd]. lia.
  Qed.
  Lemma answersb_iff : forall a q d, answersb a q d = true <-> answers a q d.
  Proof.
    intros a q d. unfold answersb, answers. rewrite !andb_true_iff, String.eqb_eq, rcv_eqb_eq, eqb_true_iff.
    assert (K : ikind_eqb (dk d) IModule = qmodule q <-> (dk d = IModule <-> qmodule q = true)).
    { rewrite <- ikind_eqb_eq. destruct (ikind_eqb (dk d) IModule), (qmodule q); intuition congruence. }
    assert (V : visibleb a q d = true <-> visible a q d).
    { unfold visibleb. rewrite !orb_true_iff, !andb_true_iff, !Z.eqb_eq. split.
      - intros [[[A B]|[A B]]|[[A B] C]]; [apply VUniverse|apply VOwn|]; try assumption. destruct (qrcv q) eqn:Q; [apply VMethod; congruence|].
        apply VImported; try assumption. apply importedb_iff. exact C.
      - intros [A B|A B|A B C D|A B C]; [left; left; auto|left; right; auto|right..]. + split; [auto|]. rewrite C. apply importedb_iff. exact D.
        + split; [auto|]. destruct (qrcv q); [reflexivity|congruence]. }
    rewrite K, V. intuition.
  Qed.

  Lemma answers_clash : forall a q d e, answers a q d -> answers a q e -> clash d e.
  Proof.
    intros a q d e (N1 & K1 & R1 & V1) (N2 & K2 & R2 & V2). split; [congruence|]. split; [tauto|]. split; [congruence|].
    destruct V1, V2; try (left; congruence); try (right; left; congruence); right; right; congruence.
  Qed.

  Lemma FOP_In : forall {A} (P : A -> A -> Prop) l d e, (forall x y, P x y -> P y x) -> ForallOrdPairs P l -> In d l -> In e l -> d = e \/ P d e.
  Proof.
    intros A P l d e SY F D E. destruct (ForallOrdPairs_In F _ _ D E) as [X|[X|X]]; auto.
  Qed.
  Lemma clash_sym : forall d e, ~ clash d e -> ~ clash e d.
  Proof. intros d e H (A & B & C & D). apply H. split; [congruence|]. split; [tauto|]. split; [congruence|]. destruct D as [D|[D|D]]; auto. Qed.

  Lemma denotes_from : forall a q l n, Forall (fun s => ForallOrdPairs (fun d e => ~ clash d e) (snd s)) l -> forall k d,
    lookupFrom a q n l = Some ((n + k)%nat, d) <->
    (exists s, nth_error l k = Some s /\ In d (snd s)) /\ answers a q d /\ forall m s e, (m < k)%nat -> nth_error l m = Some s -> In e (snd s) -> ~ answers a q e.
  Proof.
    induction l as [|[fn ds] r IH]; intros n U k d; cbn [lookupFrom].
    - split; [discriminate|]. intros ((s & N & _) & _). destruct k; discriminate.
    - inversion U as [|x y U1 U2]; subst x y. cbn [snd] in U1. destruct (List.find (answersb a q) ds) as [e|] eqn:F.
      + apply find_some in F. destruct F as [F1 F2]. apply answersb_iff in F2. split.
        * intros E. injection E as E1 <-. assert (k = 0)%nat by lia. subst k. split; [|split; [exact F2|intros; lia]].
          exists (fn, ds). split; [reflexivity|exact F1].
        * intros ((s & N & I) & A & M). destruct k as [|k].
          -- cbn [nth_error] in N. injection N as <-. cbn [snd] in I. rewrite Nat.add_0_r. do 2 f_equal.
             destruct (FOP_In _ _ _ _ clash_sym U1 F1 I) as [E|E]; [exact E|]. exfalso. apply E. eapply answers_clash; eassumption.
          -- exfalso. apply (M 0%nat (fn, ds) e); [lia|reflexivity|exact F1|exact F2].
      + assert (NA : forall e, In e ds -> ~ answers a q e).
        { intros e I A. apply answersb_iff in A. pose proof (find_none _ _ F e I). congruence. }
        destruct k as [|k].
        * split.
          -- intros E. exfalso. clear - E. rewrite lookIn_eq in E. apply lookIn_ge in E. lia.
          -- intros ((s & N & I) & A & M). cbn [nth_error] in N. injection N as <-. exfalso. exact (NA d I A).
        * replace (n + S k)%nat with (S n + k)%nat by lia. rewrite (IH (S n) U2 k d). cbn [nth_error]. split.
          -- intros (X & A & M). split; [exact X|]. split; [exact A|]. intros [|m] s e L N I; [cbn [nth_error] in N; injection N as <-; apply NA; exact I|]. apply (M m s e); [lia|exact N|exact I].
          -- intros (X & A & M). split; [exact X|]. split; [exact A|]. intros m s e L N I. apply (M (S m) s e); [lia|exact N|exact I].
  Qed.

  Lemma denotes_thm : forall a q n d, unambiguous a -> (lookup a q = Some (n, d) <-> denotes a q n d).
  Proof.
    intros a q n d U. unfold lookup. rewrite (denotes_from a q (scopes a) 0 U n d). unfold denotes, scope. split.
    - intros ((s & N & I) & A & M). rewrite N. split; [exact I|]. split; [exact A|]. intros m e L J. destruct (nth_error (scopes a) m) as [s1|] eqn:E; [|destruct J]. eapply M; eassumption.
    - intros (I & A & M). destruct (nth_error (scopes a) n) as [s|] eqn:E; [|destruct I]. split; [exists s; auto|]. split; [exact A|].
      intros m s1 e L N J. apply (M m e L). rewrite N. exact J.
  Qed.

  (** *** Preservation *)

  Lemma FOP_map : forall {A} (P : A -> A -> Prop) (f : A -> A) l, (forall x y, P x y -> P (f x) (f y)) -> ForallOrdPairs P l -> ForallOrdPairs P (map f l).
  Proof.
    intros A P f l H F. induction F as [|x l F1 F2 IH]; cbn [map]; constructor; [|exact IH].
    rewrite Forall_forall in *. intros y I. apply in_map_iff in I. destruct I as (z & <- & I). apply H. apply F1. exact I.
  Qed.

  Definition same (d e : decl) : Prop := dnm d = dnm e /\ dk d = dk e /\ rcvOf (dty d) = rcvOf (dty e) /\ dmod d = dmod e /\ did d = did e.

  Lemma same_clash : forall d d' e e', same d d' -> same e e' -> clash d e -> clash d' e'.
  Proof.
    intros d d' e e' (A1 & A2 & A3 & A4 & _) (B1 & B2 & B3 & B4 & _) (C1 & C2 & C3 & C4). unfold clash. rewrite <- A1, <- A2, <- A3, <- A4, <- B1, <- B2, <- B3, <- B4. auto.
  Qed.

  Lemma map_Inv : forall a fn ds r f, Inv a -> scopes a = (fn, ds) :: r -> (forall d, In d ds -> same d (f d)) -> Inv (with_scopes a ((fn, map f ds) :: r)).
  Proof.
    intros a fn ds r f I E H. destruct I as [U D V P]. unfold unambiguous in U. rewrite E in *.
    inversion U as [|x y U1 U2]; subst x y. inversion D as [|x y D1 D2]; subst x y. destruct D1 as [D1 D3]. cbn [snd] in *.
    constructor; unfold unambiguous; cbn [scopes with_scopes anid acur paths snd].
    - constructor; [|exact U2]. cbn [snd].
      clear - U1 H. induction U1 as [|x l F1 F2 IH]; cbn [map]; constructor.
      + rewrite Forall_forall in *. intros y I. apply in_map_iff in I. destruct I as (z & <- & I). intros C. apply (F1 z I).
        eapply same_clash; [| |exact C].
        * destruct (H x (or_introl eq_refl)) as (A1 & A2 & A3 & A4 & A5). repeat split; congruence.
        * destruct (H z (or_intror I)) as (A1 & A2 & A3 & A4 & A5). repeat split; congruence.
      + apply IH. intros d I. apply H. right. exact I.
    - constructor; [|exact D2]. cbn [snd].
      assert (M : map did (map f ds) = map did ds). { rewrite map_map. apply map_ext_in. intros d I. symmetry. apply H. exact I. }
      split; [|rewrite M; exact D3]. rewrite Forall_forall in *. intros d I. apply in_map_iff in I. destruct I as (z & <- & I).
      destruct (H z I) as (_ & _ & _ & _ & X). rewrite <- X. apply D1. exact I.
    - intros Z. specialize (V Z). inversion V as [|x y V1 V2]; subst x y. constructor; [|exact V2]. cbn [snd] in *. rewrite Forall_forall in *. intros d I. apply in_map_iff in I. destruct I as (z & <- & I).
      destruct (H z I) as (_ & _ & _ & X & _). rewrite <- X. apply V1. exact I.
    - exact P.
  Qed.

  Lemma completes_same : forall d k t ex e, completes compatFn d k t ex = Ok e -> rcvOf (dty d) = rcvOf t -> same d e.
  Proof.
    intros d k t ex e H RC. unfold completes in H. destruct (dopen d); [|discriminate]. destruct (dk d) eqn:K; try discriminate; destruct k; try discriminate; destruct (dty d) eqn:T; try discriminate; destruct t; try discriminate.
    - destruct (Bool.eqb (dexp d) ex && compatFn sig sig0); [|discriminate]. injection H as <-. unfold same. cbn [dnm dk dty dmod did rcvOf] in *. rewrite T. cbn [rcvOf]. auto.
    - destruct (byStruct && negb (tstructured TVoid)); [discriminate|]. injection H as <-. unfold same. cbn [dnm dk dty dmod did rcvOf] in *. rewrite T. cbn [rcvOf]. auto.
    - destruct (byStruct && negb (tstructured (TOther structured))); [discriminate|]. injection H as <-. unfold same. cbn [dnm dk dty dmod did rcvOf] in *. rewrite T. cbn [rcvOf]. auto.
  Qed.

  Lemma declare_Inv : forall a k nm t ex o v a' id, Inv a -> declare compatFn a k nm t ex o v = Ok (a', id) -> Inv a'.
  Proof.
    intros a k nm t ex o v a' id I H. unfold declare in H. destruct (scopes a) as [|[fn ds] r] eqn:E; [discriminate|].
    destruct (List.find _ ds) as [d|] eqn:F.
    - destruct (completes compatFn d k t ex) as [e|er|] eqn:C; cbn [bind] in H; try discriminate. injection H as <- <-.
      apply find_some in F. destruct F as [F1 F2]. apply answersb_iff in F2. destruct F2 as (_ & _ & F2 & _). cbn [qrcv] in F2.
      pose proof (completes_same _ _ _ _ _ C F2) as S. unfold replace. apply (map_Inv a fn ds r _ I E).
      intros x X. destruct (did x =? did e) eqn:DE; [|repeat split; reflexivity].
      assert (x = d); [|subst x; exact S].
      destruct S as (_ & _ & _ & _ & S). assert (did x = did d) as XD by lia. pose proof (i_ids _ I) as DI. rewrite E in DI. inversion DI as [|u w D1 D2]; subst u w. destruct D1 as [_ D1]. cbn [snd] in D1.
      clear - D1 X F1 XD. induction ds as [|y l IH]; [destruct X|]. cbn [map] in D1. inversion D1 as [|u w N1 N2]; subst u w.
      destruct X as [->|X], F1 as [->|F1]; [reflexivity| | |apply IH; assumption].
      + exfalso. apply N1. rewrite XD. apply in_map. exact F1.
      + exfalso. apply N1. rewrite <- XD. apply in_map. exact X.
    - destruct (allowed a k t ex); cbn [bind] in H; try discriminate. injection H as <- <-. destruct I as [U D V P]. unfold unambiguous in U. rewrite E in *.
      inversion U as [|x y U1 U2]; subst x y. inversion D as [|x y D1 D2]; subst x y. destruct D1 as [D1 D3]. cbn [snd] in *.
      constructor; unfold unambiguous; cbn [scopes anid acur paths snd].
      + constructor; [|exact U2]. cbn [snd]. constructor; [|exact U1]. apply Forall_forall. intros e Ie C.
        pose proof (find_none _ _ F e Ie) as NA. cbv beta in NA.
        assert (A : answers a {| qm := acur a; qnm := nm; qrcv := rcvOf t; qmodule := ikind_eqb k IModule |} e).
        { destruct C as (C1 & C2 & C3 & C4). cbn [dnm dk dty dmod] in *. unfold answers. cbn [qnm qm qrcv qmodule]. split; [congruence|]. split; [rewrite ikind_eqb_eq; tauto|]. split; [congruence|].
          destruct C4 as [C4|[C4|C4]]; [apply VOwn; cbn [qm]; congruence| |apply VUniverse; cbn [qm]; auto].
          apply VUniverse; cbn [qm]; [|reflexivity]. specialize (V C4). inversion V as [|x y V1 V2]; subst x y. cbn [snd] in V1. rewrite Forall_forall in V1. apply V1. exact Ie. }
        apply answersb_iff in A. congruence.
      + constructor; cbn [snd map did].
        * split; [constructor; [cbn [did]; lia|]; eapply Forall_impl; [|exact D1]; intros x X; cbv beta in *; lia|].
          constructor; [|exact D3]. intros X. apply in_map_iff in X. destruct X as (y & Y1 & Y2). rewrite Forall_forall in D1. specialize (D1 y Y2). cbv beta in D1. lia.
        * eapply Forall_impl; [|exact D2]. intros x [X1 X2]. split; [|exact X2]. eapply Forall_impl; [|exact X1]. intros y Y. cbv beta in *. lia.
      + intros Z. specialize (V Z). inversion V as [|x y V1 V2]; subst x y. constructor; [|exact V2]. cbn [snd] in *. constructor; [exact Z|exact V1].
      + exact P.
  Qed.

  Lemma tl_Inv : forall a, Inv a -> Inv (pop a).
  Proof.
    intros a [U D V P]. constructor; unfold unambiguous in *; cbn [pop with_scopes scopes anid acur paths] in *; destruct (scopes a) as [|x l]; cbn [tl]; try (constructor; fail); try exact P.
    - inversion U; assumption.
    - inversion D; assumption.
    - intros Z. specialize (V Z). inversion V; assumption.
  Qed.
  Lemma push_Inv : forall a fn a', Inv a -> push a fn = Ok a' -> Inv a'.
  Proof.
    intros a fn a' [U D V P] H. unfold push in H. destruct (100 <=? _)%nat; [discriminate|]. injection H as <-.
    constructor; unfold unambiguous in *; cbn [with_scopes scopes anid acur paths] in *; try exact P.
    - constructor; [constructor|exact U].
    - constructor; [|exact D]. cbn [snd map]. split; constructor.
    - intros Z. constructor; [constructor|exact (V Z)].
  Qed.

  Lemma Inv_ext : forall a b, Inv a -> scopes b = scopes a -> anid b = anid a -> (acur b = acur a \/ 0 < acur b) -> (List.length (paths a) <= List.length (paths b))%nat -> Inv b.
  Proof.
    intros a b [U D V P] E1 E2 E3 E4. constructor; unfold unambiguous in *; rewrite ?E1, ?E2; try assumption.
    - intros Z. destruct E3 as [E3|E3]; [apply V; congruence|lia].
    - lia.
  Qed.

  Lemma import_Inv : forall a m al a', Inv a -> import compatFn a m al = Ok a' -> Inv a'.
  Proof.
    intros a m al a' I H. unfold import in H. destruct (negb _); [discriminate|]. destruct (importedb _ _ _); [discriminate|].
    destruct (declare _ _ _ _ _ _ _ _) as [[a1 id]|e|] eqn:D; cbn [bind fst] in H; try discriminate. injection H as <-.
    eapply declare_Inv; [|exact D]. eapply Inv_ext; [exact I|reflexivity|reflexivity|left; reflexivity|cbn [paths]; lia].
  Qed.

  Lemma add_Inv : forall a path a' m, Inv a -> addModule nameOf a path = Ok (a', m) -> Inv (with_acur a' m).
  Proof.
    intros a path a' m I H. unfold addModule in H. destruct (1024 <=? _)%nat; [discriminate|]. destruct (nameOf path); [|discriminate]. destruct (indexFrom _ _ _); [discriminate|]. injection H as <- <-.
    pose proof (i_pos _ I). eapply Inv_ext; [exact I|reflexivity|reflexivity|right; cbn [acur with_acur]; lia|cbn [paths with_acur]; rewrite app_length; lia].
  Qed.

  Lemma sem_Inv : forall c a a' out, Inv a -> 0 < acur a -> sem compatFn nameOf c a = Ok (a', out) -> Inv a' /\ (List.length (paths a) <= List.length (paths a'))%nat.
  Proof.
    assert (DP : forall a k nm t ex o v a' id, declare compatFn a k nm t ex o v = Ok (a', id) -> paths a' = paths a).
    { intros a k nm t ex o v a' id H. unfold declare in H. destruct (scopes a) as [|[fn ds] r]; [discriminate|].
      destruct (List.find _ ds) as [d|].
      - destruct (completes compatFn d k t ex); cbn [bind] in H; [injection H as <- <-; reflexivity|discriminate..].
      - destruct (allowed a k t ex); cbn [bind] in H; [injection H as <- <-; reflexivity|discriminate..]. }
    assert (IP : forall a m al a', import compatFn a m al = Ok a' -> paths a' = paths a).
    { intros a m al a' H. unfold import in H. destruct (negb _); [discriminate|]. destruct (importedb _ _ _); [discriminate|].
      destruct (declare _ _ _ _ _ _ _ _) as [[a1 id]|e|] eqn:D; cbn [bind fst] in H; try discriminate. injection H as <-. apply DP in D. exact D. }
    assert (D1 : forall a k nm t ex o a' (out o0 : list res), Inv a -> (let* x := declare compatFn a k nm t ex o 0 in Ok (fst x, o0)) = Ok (a', out) -> Inv a' /\ (List.length (paths a) <= List.length (paths a'))%nat).
    { intros a k nm t ex o a' out o0 I H. destruct (declare _ _ _ _ _ _ _ _) as [[a1 id]|e|] eqn:D; cbn [bind fst] in H; try discriminate. injection H as <- <-.
      split; [eapply declare_Inv; eassumption|]. apply DP in D. rewrite D. lia. }
    induction c as [|c1 IH1 c2 IH2|k nm t ex|nm rc sg ex proto|isC t|nm t ex|c1 IH1|nm bs|q nm|m nm rc|m nm|fn c1 IH1|t c1 IH1 c2 IH2|path al body IH];
      intros a a' out I AC H; cbn [sem] in H.
    - injection H as <- <-. split; [exact I|lia].
    - destruct (sem _ _ c1 a) as [[a1 o1]|e|] eqn:E1; cbn [bind fst snd] in H; try discriminate.
      destruct (sem _ _ c2 a1) as [[a2 o2]|e|] eqn:E2; cbn [bind fst snd] in H; try discriminate. injection H as <- <-.
      pose proof (proj2 (sem_tl _ _ _ _ E1)) as C1. apply IH1 in E1; [|exact I|exact AC]. destruct E1 as [E1 L1]. apply IH2 in E2; [|exact E1|rewrite C1; exact AC]. destruct E2. split; [assumption|lia].
    - eapply D1; eassumption.
    - destruct (1 <? List.length (scopes a))%nat; [discriminate|]. destruct (declare _ _ _ _ _ _ _ _) as [[a1 id]|e|] eqn:D; cbn [bind fst snd] in H; try discriminate.
      injection H as <- <-. pose proof (DP _ _ _ _ _ _ _ _ _ D) as D2. apply declare_Inv in D; [|exact I]. unfold setOpen. destruct (scopes a1) as [|[fn ds] r] eqn:E; [rewrite D2; split; [exact D|lia]|].
      cbn [paths with_scopes]. rewrite D2. split; [|lia]. apply (map_Inv a1 fn ds r _ D E). intros d Hd. destruct (did d =? id); repeat split; reflexivity.
    - destruct (tempOk t); cbn [bind] in H; try discriminate. injection H as <- <-. split; [exact I|lia].
    - destruct (lookup a _) as [[[|n] d]|]; [destruct (ikind_eqb (dk d) IVar); [injection H as <- <-; split; [exact I|lia]|]| |]; eapply D1; eassumption.
    - destruct (sem _ _ c1 a) as [[a1 o1]|e|] eqn:E1; cbn [bind fst snd] in H; try discriminate. destruct (existsb _ (scopes a1)); [discriminate|]. injection H as <- <-. eapply IH1; eassumption.
    - destruct (lookup a _) as [x|]; [injection H as <- <-; split; [exact I|lia]|]. eapply D1; eassumption.
    - injection H as <- <-. split; [exact I|lia].
    - injection H as <- <-. split; [exact I|lia].
    - injection H as <- <-. split; [exact I|lia].
    - destruct (push a fn) as [a1|e|] eqn:P; cbn [bind] in H; try discriminate. pose proof (push_Inv _ _ _ I P) as I1.
      assert (PE : paths a1 = paths a /\ acur a1 = acur a). { unfold push in P. destruct (100 <=? _)%nat; [discriminate|]. injection P as <-. auto. }
      destruct PE as [PE PC].
      destruct (sem _ _ c1 a1) as [[a2 o2]|e|] eqn:E1; cbn [bind fst snd] in H; try discriminate. injection H as <- <-.
      apply IH1 in E1; [|exact I1|rewrite PC; exact AC]. destruct E1 as [E1 L1]. split; [apply tl_Inv; exact E1|]. cbn [paths pop with_scopes]. rewrite PE in L1. exact L1.
    - destruct (push a false) as [a1|e|] eqn:P; cbn [bind] in H; try discriminate. pose proof (push_Inv _ _ _ I P) as I1.
      assert (PE : paths a1 = paths a /\ acur a1 = acur a). { unfold push in P. destruct (100 <=? _)%nat; [discriminate|]. injection P as <-. auto. }
      destruct PE as [PE PC].
      destruct (sem _ _ c1 a1) as [[a2 o2]|e|] eqn:E1; cbn [bind fst snd] in H; try discriminate.
      pose proof (proj2 (sem_tl _ _ _ _ E1)) as C1. apply IH1 in E1; [|exact I1|rewrite PC; exact AC]. destruct E1 as [E1 L1].
      destruct (match t with Some ty => tempOk ty | None => Ok tt end); cbn [bind] in H; try discriminate.
      destruct (push (pop a2) false) as [a3|e|] eqn:P2; cbn [bind] in H; try discriminate. pose proof (push_Inv _ _ _ (tl_Inv _ E1) P2) as I3.
      assert (PE2 : paths a3 = paths a2 /\ acur a3 = acur a2). { unfold push in P2. destruct (100 <=? _)%nat; [discriminate|]. injection P2 as <-. auto. }
      destruct PE2 as [PE2 PC2].
      destruct (sem _ _ c2 a3) as [[a4 o4]|e|] eqn:E2; cbn [bind fst snd] in H; try discriminate. injection H as <- <-.
      apply IH2 in E2; [|exact I3|congruence]. destruct E2 as [E2 L2]. split; [apply tl_Inv; exact E2|]. cbn [paths pop with_scopes]. rewrite PE2 in L2. rewrite PE in L1. lia.
    - destruct (match al with Some al0 => Some al0 | None => nameOf path end) as [alias|]; [|discriminate]. destruct (existsb _ (imps a)); [discriminate|].
      destruct (indexFrom (paths a) 0 path) as [m|].
      + destruct (import compatFn a m alias) as [a1|e|] eqn:IM; cbn [bind] in H; try discriminate. injection H as <- <-. split; [eapply import_Inv; eassumption|]. apply IP in IM. rewrite IM. lia.
      + destruct (addModule nameOf a path) as [[a1 m]|e|] eqn:AM; cbn [bind fst snd] in H; try discriminate. pose proof (add_Inv _ _ _ _ I AM) as I1.
        assert (PL : (List.length (paths a) <= List.length (paths a1))%nat).
        { unfold addModule in AM. destruct (1024 <=? _)%nat; [discriminate|]. destruct (nameOf path); [|discriminate]. destruct (indexFrom _ _ _); [discriminate|]. injection AM as <- <-. cbn [paths]. rewrite app_length. lia. }
        destruct (sem _ _ body _) as [[a2 o2]|e|] eqn:E2; cbn [bind fst snd] in H; try discriminate. apply IH in E2; [|exact I1|pose proof (i_pos _ I); unfold addModule in AM; destruct (1024 <=? _)%nat; [discriminate|]; destruct (nameOf path); [|discriminate]; destruct (indexFrom _ _ _); [discriminate|]; injection AM as <- <-; cbn [acur with_acur]; lia]. destruct E2 as [E2 L2]. cbn [paths with_acur] in L2.
        destruct (import compatFn _ m alias) as [a3|e|] eqn:IM; cbn [bind] in H; try discriminate. injection H as <- <-.
        assert (PI : paths a3 = paths a2) by (apply IP in IM; exact IM). split; [|rewrite PI; lia]. eapply import_Inv; [|exact IM].
        eapply Inv_ext; [exact E2|reflexivity|reflexivity|right; cbn [acur]; exact AC|cbn [paths]; lia].
  Qed.

  Lemma all_Inv : forall u a a', Inv a -> IdSpec.declareAll compatFn u a = Ok a' -> Inv a'.
  Proof.
    induction u as [|[[[k nm] t] e] r IH]; intros a a' I H; cbn [IdSpec.declareAll] in H; [injection H as <-; exact I|].
    destruct (declare _ _ _ _ _ _ _ _) as [[a1 id]|er|] eqn:D; cbn [bind fst] in H; try discriminate. eapply IH; [|exact H]. eapply declare_Inv; eassumption.
  Qed.
  Lemma init_Inv : Inv ainit.
  Proof.
    constructor; unfold unambiguous; cbn [scopes ainit acur paths].
    - constructor; [constructor|constructor].
    - constructor; [|constructor]. cbn [snd map]. split; constructor.
    - intros _. constructor; [constructor|constructor].
    - cbn [List.length]. lia.
  Qed.
  Lemma prog_Inv : forall u path body a out, meaning compatFn nameOf u path body = Ok (a, out) -> unambiguous a.
  Proof.
    intros u path body a out H. unfold meaning in H. destruct (IdSpec.declareAll compatFn u ainit) as [a1|e|] eqn:A; cbn [bind] in H; try discriminate.
    destruct (addModule nameOf a1 path) as [[a2 m]|e|] eqn:AM; cbn [bind fst snd] in H; try discriminate.
    pose proof (all_Inv _ _ _ init_Inv A) as I1. pose proof (add_Inv _ _ _ _ I1 AM) as I2. apply sem_Inv in H; [exact (i_un _ (proj1 H))|exact I2|].
    pose proof (i_pos _ I1). unfold addModule in AM; destruct (1024 <=? _)%nat; [discriminate|]; destruct (nameOf path); [|discriminate]; destruct (indexFrom _ _ _); [discriminate|]; injection AM as <- <-; cbn [acur with_acur]; lia.
  Qed.
End PROG.

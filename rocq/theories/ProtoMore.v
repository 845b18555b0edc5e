(** What calls do in the compiled code. *)
Require Import Arith List Bool Lia.
Require Import Verif.Base Verif.ProtoModel Verif.ProtoSpec Verif.ProtoProofs.
Import ListNotations.
Local Open Scope nat_scope.

Lemma setAt_length : forall c p x, List.length (setAt c p x) = List.length c.
Proof.
  induction c as [|y c IH]; intros [|p] x; cbn; auto.
Qed.

Lemma setAt_same : forall c p x, p < List.length c -> nth_error (setAt c p x) p = Some x.
Proof.
  induction c as [|y c IH]; intros [|p] x H; cbn in *; try lia; auto. apply IH. lia.
Qed.

Lemma setAt_other : forall c p x q, q <> p -> nth_error (setAt c p x) q = nth_error c q.
Proof.
  induction c as [|y c IH]; intros [|p] x [|q] H; cbn; auto; try lia.
Qed.

Lemma nth_lt : forall (c : list instr) p x, nth_error c p = Some x -> p < List.length c.
Proof. intros. apply nth_error_Some. congruence. Qed.

Lemma nth_app_l : forall (c r : list instr) p x,
  nth_error c p = Some x -> nth_error (c ++ r) p = Some x.
Proof. intros. rewrite nth_error_app1; auto. eapply nth_lt; eauto. Qed.

Lemma nth_at_end : forall (c r : list instr) x,
  nth_error (c ++ x :: r) (List.length c) = Some x.
Proof. intros. rewrite nth_error_app2, Nat.sub_diag by auto. reflexivity. Qed.

(** Every instruction other than a stub is kept. *)
Definition ext (c c' : list instr) : Prop :=
  forall p x, nth_error c p = Some x -> x <> INop -> nth_error c' p = Some x.

Lemma ext_refl : forall c, ext c c.
Proof. unfold ext. auto. Qed.

Lemma ext_trans : forall a b c, ext a b -> ext b c -> ext a c.
Proof. unfold ext. auto. Qed.

Lemma ext_app : forall c r, ext c (c ++ r).
Proof. unfold ext. intros. now apply nth_app_l. Qed.

Lemma ext_set : forall c p x, nth_error c p = Some INop -> ext c (setAt c p x).
Proof.
  unfold ext. intros c p x H q y Hq Hy. rewrite setAt_other; auto. congruence.
Qed.

Section Calls.
Variable ds : list decl.
Variable h : host.

(** [t] is where the function itself is. *)
Definition target (c : list instr) (t : nat) (f : fid) : Prop :=
  (exists n d, nth_error c t = Some (IEnter n) /\ nth_error ds n = Some d /\
               did d = f /\ dbody d <> None) \/
  (exists x, nth_error c t = Some (IExt x) /\ nth_error c (S t) = Some IRet /\
             bodiless ds f /\ extOf h f = Some x).

Definition leads (c : list instr) (e : nat) (f : fid) : Prop :=
  exists t, (t = e \/ nth_error c e = Some (IGoto t)) /\ target c t f.

(** [P f p]: function [f] has a stub at [p], not yet patched. *)
Definition okAt (P : fid -> nat -> Prop) (c : list instr) (e : nat) (f : fid) : Prop :=
  leads c e f \/ (P f e /\ nth_error c e = Some INop).

Fixpoint usesAt (P : fid -> nat -> Prop) (c : list instr) (pc : nat) (us : list fid)
  : Prop :=
  match us with
  | [] => nth_error c pc = Some IRet
  | f :: us => (exists e, nth_error c pc = Some (ICall e) /\ okAt P c e f) /\
               usesAt P c (S pc) us
  end.

Definition bodies (P : fid -> nat -> Prop) (c : list instr) : Prop :=
  forall t n, nth_error c t = Some (IEnter n) ->
  exists d us, nth_error ds n = Some d /\ dbody d = Some us /\ usesAt P c (S t) us.

Definition stubs (P : fid -> nat -> Prop) (c : list instr) : Prop :=
  nth_error c 0 = Some INop /\
  (forall f p, P f p -> nth_error c p = Some INop /\ p <> 0) /\
  (forall f g p, P f p -> P g p -> f = g).

Lemma target_ext : forall c c' t f, ext c c' -> target c t f -> target c' t f.
Proof.
  intros c c' t f He [(n & d & H1 & H2)|(x & H1 & H2 & H3)].
  - left. exists n, d. split; auto. apply He; auto. discriminate.
  - right. exists x. split; [|split; auto]; apply He; auto; discriminate.
Qed.

Lemma leads_ext : forall c c' e f, ext c c' -> leads c e f -> leads c' e f.
Proof.
  intros c c' e f He (t & H1 & H2). exists t. split; [|eapply target_ext; eauto].
  destruct H1 as [H1|H1]; auto. right. apply He; auto. discriminate.
Qed.

(** The stubs still pending stay; the others now lead to their functions. *)
Definition moves (P P' : fid -> nat -> Prop) (c c' : list instr) : Prop :=
  ext c c' /\
  forall g q, P g q -> nth_error c q = Some INop ->
    (P' g q /\ nth_error c' q = Some INop) \/ leads c' q g.

Lemma okAt_moves : forall P P' c c' e f, moves P P' c c' ->
  okAt P c e f -> okAt P' c' e f.
Proof.
  intros P P' c c' e f [H1 H2] [H|[H H']].
  - left. eapply leads_ext; eauto.
  - destruct (H2 _ _ H H') as [K|K]; [right|left]; auto.
Qed.

Lemma usesAt_moves : forall P P' c c' us pc, moves P P' c c' ->
  usesAt P c pc us -> usesAt P' c' pc us.
Proof.
  intros P P' c c' us. induction us as [|f us IH]; intros pc Hm H; cbn in *.
  - apply Hm; auto. discriminate.
  - destruct H as [(e & H1 & H2) H3]. split; auto. exists e. split.
    + apply Hm; auto. discriminate.
    + eapply okAt_moves; eauto.
Qed.

(** The calls of a body. *)
Lemma uses_code : forall us st st', compileUses st us = Ok st' ->
  exists cs, code st' = code st ++ cs /\
    Forall2 (fun f x => exists i, findIn (idents st) f = Some i /\
                                  x = ICall (ientry i)) us cs.
Proof.
  induction us as [|f us IH]; intros st st' H; cbn [compileUses] in H.
  - injection H as <-. exists []. rewrite app_nil_r. auto.
  - destruct (findIn (idents st) f) as [i|] eqn:E; [|discriminate].
    apply IH in H. cbn [code idents] in H. destruct H as (cs & H1 & H2).
    exists (ICall (ientry i) :: cs). split.
    + rewrite H1. unfold emit. rewrite <- app_assoc. reflexivity.
    + constructor; eauto.
Qed.

Lemma usesAt_code : forall P ids c us cs pre,
  (forall f i, findIn ids f = Some i -> okAt P c (ientry i) f) ->
  Forall2 (fun f x => exists i, findIn ids f = Some i /\ x = ICall (ientry i)) us cs ->
  c = pre ++ cs ++ [IRet] ->
  usesAt P c (List.length pre) us.
Proof.
  intros P ids c us cs pre Hok HF. revert pre.
  induction HF as [|f x us cs (i & H1 & H2) HF IH]; intros pre Hc; cbn [usesAt].
  - rewrite Hc. cbn [app]. apply nth_at_end.
  - split.
    + exists (ientry i). split; auto. rewrite Hc, <- H2. cbn [app]. apply nth_at_end.
    + replace (S (List.length pre)) with (List.length (pre ++ [x]))
        by (rewrite app_length; cbn; lia).
      apply IH. rewrite Hc, <- app_assoc. reflexivity.
Qed.

Definition pend (ids : list ident) (f : fid) (p : nat) : Prop :=
  exists i, findIn ids f = Some i /\ iproto i = Some p.

Definition Inv2 (ids : list ident) (c : list instr) : Prop :=
  stubs (pend ids) c /\
  (forall f i, findIn ids f = Some i -> okAt (pend ids) c (ientry i) f) /\
  bodies (pend ids) c.

(** * A declaration *)
Lemma body_codeBefore : forall st n d us, dbody d = Some us ->
  exists c0, codeBefore st n d = c0 ++ [IEnter n] /\
    List.length c0 = List.length (code st) /\
    ((c0 = code st /\ forall p, ~ pend (idents st) (did d) p) \/
     exists p, pend (idents st) (did d) p /\
               c0 = setAt (code st) p (IGoto (List.length (code st)))).
Proof.
  intros st n d us Hb. unfold codeBefore. rewrite Hb. unfold emit, pend.
  destruct (findIn (idents st) (did d)) as [i|].
  - destruct (iproto i) as [p|] eqn:Ep.
    + eexists. split; [reflexivity|]. unfold genEntryPoint. rewrite setAt_length.
      split; auto. right. exists p. eauto.
    + eexists. split; [reflexivity|]. split; auto. left. split; auto.
      intros p (j & H1 & H2). congruence.
  - eexists. split; [reflexivity|]. split; auto. left. split; auto.
    intros p (j & H1 & H2). congruence.
Qed.

Lemma idsAfter_find : forall st d f, 
  findIn (idsAfter st d) f =
  if fidEqb (did d) f
  then Some (mkIdent (did d) (dty d) (dexp d) (List.length (code st))
              (match dbody d with Some _ => None
               | None => Some (List.length (code st)) end))
  else findIn (idents st) f.
Proof.
  intros st d f. unfold idsAfter.
  destruct (findIn (idents st) (did d)) as [i|] eqn:E.
  - rewrite findIn_upd by auto. destruct (fidEqb (did d) f) eqn:E2; auto.
    apply fidEqb_eq in E2. rewrite <- E2, E. reflexivity.
  - cbn [findIn iid]. reflexivity.
Qed.

Lemma body_step : forall st n d us calls,
  Inv2 (idents st) (code st) -> nth_error ds n = Some d -> dbody d = Some us ->
  Forall2 (fun f x => exists i, findIn (idsAfter st d) f = Some i /\
                                x = ICall (ientry i)) us calls ->
  Inv2 (idsAfter st d) (codeBefore st n d ++ calls ++ [IRet]).
Proof.
  intros st n d us calls (HS & HE & HB) Hn Hb HF.
  destruct (body_codeBefore st n d us Hb) as (c0 & Ec & Hlen & Hp).
  set (c' := codeBefore st n d ++ calls ++ [IRet]).
  set (P := pend (idents st)) in *. set (P' := pend (idsAfter st d)).
  set (c := code st) in *.
  assert (Ec' : c' = c0 ++ IEnter n :: calls ++ [IRet]).
  { unfold c'. rewrite Ec, <- app_assoc. reflexivity. }
  assert (Hat : nth_error c' (List.length c) = Some (IEnter n)).
  { rewrite Ec', <- Hlen. apply nth_at_end. }
  assert (Htgt : target c' (List.length c) (did d)).
  { left. exists n, d. split; auto. split; auto. split; auto. congruence. }
  assert (HP' : forall g q, P' g q <-> P g q /\ g <> did d).
  { intros g q. unfold P', P, pend. rewrite idsAfter_find, Hb.
    destruct (fidEqb (did d) g) eqn:E.
    - apply fidEqb_eq in E. subst g. split.
      + intros (i & H1 & H2). injection H1 as <-. cbn in H2. discriminate.
      + intros [_ H]. contradiction.
    - split.
      + intros H. split; auto. intros ->. rewrite fidEqb_refl in E. discriminate.
      + intros [H _]. exact H. }
  destruct HS as (S1 & S2 & S3).
  assert (Hc0 : ext c c0 /\
    (forall q, (forall p, P (did d) p -> q <> p) -> nth_error c q = Some INop ->
       nth_error c0 q = Some INop) /\
    (forall p, P (did d) p -> nth_error c0 p = Some (IGoto (List.length c)))).
  { destruct Hp as [[-> Hp]|(p & Hp & ->)].
    - split; [apply ext_refl|]. split; auto. intros p H. destruct (Hp p H).
    - destruct (S2 _ _ Hp) as [T1 T2]. split; [now apply ext_set|]. split.
      + intros q Hq Hc. rewrite setAt_other; auto.
      + intros p' Hp'. assert (p' = p).
        { destruct Hp as (i & A & B). destruct Hp' as (j & A' & B'). congruence. }
        subst. apply setAt_same. eapply nth_lt; eauto. }
  destruct Hc0 as (X1 & X2 & X3).
  assert (Hm : moves P P' c c').
  { split.
    - eapply ext_trans; [exact X1|]. rewrite Ec'. apply ext_app.
    - intros g q Hg Hq. destruct (fid_dec g (did d)) as [->|Hne].
      + right. exists (List.length c). split; auto. right. rewrite Ec'.
        apply nth_app_l. auto.
      + left. split; [now apply HP'|]. rewrite Ec'. apply nth_app_l. apply X2; auto.
        intros p Hp' ->. apply Hne. eapply S3; eauto. }
  assert (HE' : forall f i, findIn (idsAfter st d) f = Some i ->
                            okAt P' c' (ientry i) f).
  { intros f i Hf. rewrite idsAfter_find in Hf. destruct (fidEqb (did d) f) eqn:E.
    - injection Hf as <-. apply fidEqb_eq in E. subst f. left. cbn [ientry].
      exists (List.length c). auto.
    - eapply okAt_moves; eauto. }
  split; [|split; auto].
  - split; [|split].
    + rewrite Ec'. apply nth_app_l. apply X2; auto. intros p Hp'.
      destruct (S2 _ _ Hp'). auto.
    + intros f p Hf. apply HP' in Hf. destruct Hf as [Hf Hne].
      destruct (S2 _ _ Hf) as [T1 T2]. split; auto.
      rewrite Ec'. apply nth_app_l. apply X2; auto.
      intros q Hq ->. apply Hne. eapply S3; eauto.
    + intros f g p Hf Hg. apply HP' in Hf, Hg. destruct Hf, Hg. eapply S3; eauto.
  - intros t m Ht. destruct (Nat.eq_dec t (List.length c)) as [->|Hne].
    + rewrite Hat in Ht. injection Ht as <-. exists d, us. split; auto. split; auto.
      replace (S (List.length c)) with (List.length (c0 ++ [IEnter n]))
        by (rewrite app_length; cbn; lia).
      eapply usesAt_code; eauto. rewrite Ec', <- app_assoc. reflexivity.
    + assert (Ht0 : nth_error c t = Some (IEnter m)).
      { rewrite Ec' in Ht. destruct (lt_dec t (List.length c0)) as [Hl|Hl].
        - rewrite nth_error_app1 in Ht by auto.
          destruct Hp as [[-> _]|(p & _ & ->)]; auto.
          destruct (Nat.eq_dec t p) as [->|Htp].
          + rewrite setAt_same in Ht; [discriminate|]. rewrite <- Hlen. exact Hl.
          + rewrite setAt_other in Ht; auto.
        - exfalso. rewrite nth_error_app2 in Ht by lia.
          replace (t - List.length c0) with (S (t - List.length c0 - 1)) in Ht by lia.
          cbn [nth_error] in Ht. apply nth_error_In in Ht. apply in_app_or in Ht.
          destruct Ht as [Ht|[Ht|[]]]; [|discriminate].
          clear - HF Ht. induction HF as [|f x us cs (i & _ & E) HF IH]; [contradiction|].
          destruct Ht as [Ht|Ht]; [congruence|auto]. }
      destruct (HB t m Ht0) as (d' & us' & A & B & C). exists d', us'.
      split; auto. split; auto. eapply usesAt_moves; eauto.
Qed.

Lemma proto_step : forall st n d,
  Inv2 (idents st) (code st) -> dbody d = None ->
  findIn (idents st) (did d) = None ->
  Inv2 (idsAfter st d) (codeBefore st n d).
Proof.
  intros st n d (HS & HE & HB) Hb Hf.
  assert (Ec : codeBefore st n d = code st ++ [INop]).
  { unfold codeBefore. rewrite Hf, Hb. reflexivity. }
  rewrite Ec. set (c := code st) in *. set (c' := c ++ [INop]).
  set (P := pend (idents st)) in *. set (P' := pend (idsAfter st d)).
  assert (HP' : forall g q, P' g q <-> P g q \/ (g = did d /\ q = List.length c)).
  { intros g q. unfold P', P, pend. rewrite idsAfter_find, Hb.
    destruct (fidEqb (did d) g) eqn:E.
    - apply fidEqb_eq in E. subst g. split.
      + intros (i & H1 & H2). injection H1 as <-. cbn in H2. injection H2 as <-. auto.
      + intros [(i & H1 & H2)|[_ ->]]; [congruence|]. eexists. split; eauto.
    - split; auto. intros [H|[-> _]]; auto. rewrite fidEqb_refl in E. discriminate. }
  assert (Hm : moves P P' c c').
  { split; [apply ext_app|]. intros g q Hg Hq. left. split; [apply HP'; auto|].
    now apply nth_app_l. }
  destruct HS as (S1 & S2 & S3). split; [|split].
  - split; [|split].
    + now apply nth_app_l.
    + intros f p H. apply HP' in H. destruct H as [H|[-> ->]].
      * destruct (S2 _ _ H). split; auto. now apply nth_app_l.
      * split; [apply nth_at_end|]. apply nth_lt in S1. lia.
    + intros f g p H1 H2. apply HP' in H1, H2.
      destruct H1 as [H1|[-> ->]], H2 as [H2|[-> H2]]; auto.
      * eapply S3; eauto.
      * destruct (S2 _ _ H1) as [K _]. apply nth_lt in K. lia.
      * destruct (S2 _ _ H2) as [K _]. apply nth_lt in K. lia.
  - intros f i H. rewrite idsAfter_find in H. destruct (fidEqb (did d) f) eqn:E.
    + injection H as <-. apply fidEqb_eq in E. subst f. right. cbn [ientry].
      split; [apply HP'; auto|apply nth_at_end].
    + eapply okAt_moves; eauto.
  - intros t m Ht. assert (Ht0 : nth_error c t = Some (IEnter m)).
    { unfold c' in Ht. destruct (lt_dec t (List.length c)) as [Hl|Hl].
      - now rewrite nth_error_app1 in Ht.
      - rewrite nth_error_app2 in Ht by lia.
        destruct (t - List.length c) as [|[|?]]; discriminate. }
    destruct (HB t m Ht0) as (d' & us' & A & B & C). exists d', us'.
    split; auto. split; auto. eapply usesAt_moves; eauto.
Qed.

Lemma decls_inv2 : forall rest pre st st',
  onceProto ds -> ds = pre ++ rest -> Inv1 pre (idents st) ->
  Inv2 (idents st) (code st) ->
  parseDecls st (List.length pre) rest = Ok st' ->
  Inv2 (idents st') (code st').
Proof.
  induction rest as [|d rest IH]; intros pre st st' Ho Hds HI1 HI2 H;
    cbn [parseDecls] in H.
  - injection H as <-. auto.
  - destruct (parseFnDecl st (List.length pre) d) as [st1| |] eqn:E;
      cbn [bind] in H; try discriminate.
    apply (IH (pre ++ [d]) st1 st'); auto.
    + rewrite Hds, <- app_assoc. reflexivity.
    + eapply decl_inv1; eauto.
    + apply (decl_char pre) in E; auto. destruct E as [Hm E].
      destruct (dbody d) as [us|] eqn:Eb.
      * destruct E as (st2 & E1 & ->). cbn [idents code].
        pose proof (uses_idents _ _ _ E1) as Ei.
        destruct (uses_code _ _ _ E1) as (cs & C1 & C2). cbn [idents code] in *.
        rewrite Ei, C1. unfold emit. rewrite <- app_assoc.
        eapply body_step; eauto. rewrite Hds. rewrite nth_error_app2 by lia.
        rewrite Nat.sub_diag. reflexivity.
      * subst st1. cbn [idents code]. apply proto_step; auto.
        destruct (findIn (idents st) (did d)) as [i|] eqn:Ef; auto. exfalso.
        destruct HI1 as [_ HI1]. specialize (HI1 (did d)). rewrite Ef in HI1.
        destruct HI1 as (_ & (d0 & D1 & D2) & _).
        apply in_split in D1. destruct D1 as (a & b & D1).
        apply (Ho a d0 b d rest); auto. rewrite Hds, D1, <- app_assoc. reflexivity.
    + rewrite app_length. cbn [List.length]. rewrite Nat.add_1_r. exact H.
Qed.

(** * External functions *)
Definition pendL (l : list ident) (f : fid) (p : nat) : Prop :=
  exists i, In i l /\ iid i = f /\ iproto i = Some p.

Lemma resolve_step : forall l res c res' c' (E : nat -> fid -> Prop),
  NoDup (map iid l) ->
  (forall i, In i l -> iproto i <> None -> bodiless ds (iid i)) ->
  stubs (pendL l) c -> bodies (pendL l) c ->
  (forall e f, E e f -> okAt (pendL l) c e f) ->
  doResolveExtern h l res c = Ok (res', c') ->
  nth_error c' 0 = Some INop /\ bodies (pendL []) c' /\
  (forall e f, E e f -> okAt (pendL []) c' e f).
Proof.
  induction l as [|i l IH]; intros res c res' c' E HN Hb HS HB HE H;
    cbn [doResolveExtern] in H.
  - injection H as <- <-. split; [apply HS|auto].
  - cbn in HN. inversion HN as [|? ? HN1 HN2]; subst.
    destruct (iproto i) as [p|] eqn:Ep.
    2:{ assert (HP : forall f q, pendL (i :: l) f q <-> pendL l f q).
        { intros f q. split; intros (j & A & B & C).
          - destruct A as [<-|A]; [congruence|]. exists j. auto.
          - exists j. cbn. auto. }
        assert (Hm : moves (pendL (i :: l)) (pendL l) c c).
        { split; [apply ext_refl|]. intros g q Hg Hq. left. split; auto. now apply HP. }
        eapply (IH res c res' c'); eauto.
        - intros j Hj. apply Hb. now right.
        - destruct HS as (S1 & S2 & S3). split; [auto|]. split.
          + intros f q Hq. apply (S2 f q). now apply HP.
          + intros f g q H1 H2. apply (S3 f g q); now apply HP.
        - intros t n Ht. destruct (HB t n Ht) as (d & us & A & B & C).
          exists d, us. split; auto. split; auto. eapply usesAt_moves; eauto.
        - intros e f He. eapply okAt_moves; eauto. }
    set (x := bare (iid i)) in *.
    assert (Hx : exists e res1, extOf h (iid i) = Some e /\
      doResolveExtern h l res1 (emit (emit (genEntryPoint c p) (IExt e)) IRet)
        = Ok (res', c')).
    { unfold extOf. fold x. destruct (extern h x) as [e|].
      - destruct (memNat x res); [discriminate|].
        destruct (mayUse h x); cbn [negb bind] in H; [|discriminate]. eauto.
      - cbn [bind] in H. destruct (implLib h x) as [e|]; [|discriminate]. eauto. }
    clear H. destruct Hx as (e & res1 & Hext & H).
    set (c1 := emit (emit (genEntryPoint c p) (IExt e)) IRet) in *.
    destruct HS as (S1 & S2 & S3).
    assert (Hpi : pendL (i :: l) (iid i) p) by (exists i; cbn; auto).
    destruct (S2 _ _ Hpi) as [T1 T2].
    assert (Ec1 : c1 = setAt c p (IGoto (List.length c)) ++ [IExt e; IRet]).
    { unfold c1, emit, genEntryPoint. rewrite <- app_assoc. reflexivity. }
    assert (Hl : List.length (setAt c p (IGoto (List.length c))) = List.length c)
      by apply setAt_length.
    assert (Htgt : target c1 (List.length c) (iid i)).
    { right. exists e. rewrite Ec1. split; [|split; [|split]].
      - rewrite <- Hl at 2. apply nth_at_end.
      - rewrite nth_error_app2 by lia.
        replace (S (List.length c) - List.length (setAt c p (IGoto (List.length c))))
          with 1 by lia. reflexivity.
      - apply Hb; [now left|congruence].
      - auto. }
    assert (Hkeep : forall q, q <> p -> nth_error c q = Some INop ->
                              nth_error c1 q = Some INop).
    { intros q Hq Hc. rewrite Ec1. apply nth_app_l. rewrite setAt_other; auto. }
    assert (Hsub : forall g q, pendL l g q -> pendL (i :: l) g q /\ q <> p).
    { intros g q (j & A & B & C). assert (K : pendL (i :: l) g q) by (exists j; cbn; auto).
      split; auto. intros ->. apply HN1. rewrite (S3 _ _ _ Hpi K), <- B.
      now apply in_map. }
    assert (Hm : moves (pendL (i :: l)) (pendL l) c c1).
    { split.
      - eapply ext_trans; [apply (ext_set c p (IGoto (List.length c))); auto|].
        rewrite Ec1. apply ext_app.
      - intros g q (j & [<-|A] & B & C) Hq.
        + right. assert (q = p) by congruence. subst q g.
          exists (List.length c). split; auto. right. rewrite Ec1. apply nth_app_l.
          apply setAt_same. eapply nth_lt; eauto.
        + left. assert (K : pendL l g q) by (exists j; auto). split; auto.
          apply Hkeep; auto. apply (Hsub g q K). }
    eapply (IH res1 c1 res' c'); eauto.
    + intros j Hj. apply Hb. now right.
    + split; [apply Hkeep; auto|]. split.
      * intros f q Hq. destruct (Hsub f q Hq) as [K1 K2]. destruct (S2 _ _ K1).
        split; auto.
      * intros f g q H1 H2. apply (S3 f g q); now apply Hsub.
    + intros t m Ht. assert (Ht0 : nth_error c t = Some (IEnter m)).
      { rewrite Ec1 in Ht. destruct (lt_dec t (List.length c)) as [Hlt|Hlt].
        - rewrite nth_error_app1 in Ht by lia.
          destruct (Nat.eq_dec t p) as [->|Htp].
          + rewrite setAt_same in Ht; [discriminate|auto].
          + rewrite setAt_other in Ht; auto.
        - rewrite nth_error_app2 in Ht by lia.
          destruct (t - List.length (setAt c p (IGoto (List.length c)))) as [|[|[|?]]];
            discriminate. }
      destruct (HB t m Ht0) as (d' & us' & A & B & C). exists d', us'.
      split; auto. split; auto. eapply usesAt_moves; eauto.
    + intros e' f He. eapply okAt_moves; eauto.
Qed.

(** * The whole module *)
Fixpoint codeAt (c : list instr) (pc : nat) (us : list fid) : Prop :=
  match us with
  | [] => nth_error c pc = Some IRet
  | f :: us => (exists e, nth_error c pc = Some (ICall e) /\ leads c e f) /\
               codeAt c (S pc) us
  end.

Definition linked (ids : list ident) (c : list instr) : Prop :=
  (forall f i, findIn ids f = Some i -> leads c (ientry i) f) /\
  (forall t n, nth_error c t = Some (IEnter n) ->
   exists d us, nth_error ds n = Some d /\ dbody d = Some us /\ codeAt c (S t) us).

Lemma compile_linked : forall res ids c,
  onceProto ds -> compile h res ds = Ok (ids, c) -> linked ids c.
Proof.
  intros res ids c Ho H. unfold compile in H.
  destruct (parseDecls (mkCst [] [INop]) 0 ds) as [st| |] eqn:E; cbn [bind] in H;
    try discriminate.
  destruct (doResolveExtern h (idents st) res (code st)) as [[res' c1]| |] eqn:E2;
    cbn [bind] in H; try discriminate.
  injection H as <- <-.
  pose proof (decls_inv1 ds [] (mkCst [] [INop]) 0 st inv1_init E) as HI1. cbn [app] in HI1.
  assert (HI2 : Inv2 (idents st) (code st)).
  { eapply (decls_inv2 ds [] (mkCst [] [INop])); eauto.
    - apply inv1_init.
    - cbn [idents code]. split; [|split].
      + split; [reflexivity|]. split; intros f; [intros p|intros g p];
          intros (i & H & _); discriminate.
      + intros f i H. discriminate.
      + intros t n H. destruct t as [|[|t]]; discriminate. }
  destruct HI2 as (HS & HE & HB).
  assert (HP : forall f p, pend (idents st) f p <-> pendL (idents st) f p).
  { intros f p. split.
    - intros (i & A & B). destruct (findIn_iid _ _ _ A). exists i. auto.
    - intros (i & A & B & C). exists i. split; auto. rewrite <- B.
      apply findIn_nodup; auto. apply HI1. }
  assert (Hm : moves (pend (idents st)) (pendL (idents st)) (code st) (code st)).
  { split; [apply ext_refl|]. intros g q Hg Hq. left. split; auto. now apply HP. }
  destruct (resolve_step (idents st) res (code st) res' c1
              (fun e f => exists i, findIn (idents st) f = Some i /\ e = ientry i))
    as (R1 & R2 & R3); auto.
  - apply HI1.
  - intros i Hi Hp. apply (bodiless_pending _ _ _ HI1). eauto.
  - destruct HS as (S1 & S2 & S3). split; [auto|]. split.
    + intros f q Hq. apply (S2 f q). now apply HP.
    + intros f g q H1 H2. apply (S3 f g q); now apply HP.
  - intros t n Ht. destruct (HB t n Ht) as (d & us & A & B & C).
    exists d, us. split; auto. split; auto. eapply usesAt_moves; eauto.
  - intros e f (i & Hi & ->). eapply okAt_moves; eauto.
  - set (c2 := emit (genEntryPoint c1 0) IHalt).
    assert (He : ext c1 c2).
    { eapply ext_trans; [apply (ext_set c1 0 (IGoto (List.length c1))); auto|].
      unfold c2, emit. apply ext_app. }
    assert (Hok : forall e f, okAt (pendL []) c1 e f -> leads c2 e f).
    { intros e f [K|[(i & [] & _) _]]. eapply leads_ext; eauto. }
    split.
    + intros f i Hf. apply Hok. apply R3. eauto.
    + intros t n Ht. assert (Ht0 : nth_error c1 t = Some (IEnter n)).
      { unfold c2, emit, genEntryPoint in Ht.
        destruct (lt_dec t (List.length c1)) as [Hl|Hl].
        - rewrite nth_error_app1 in Ht by (rewrite setAt_length; lia).
          destruct (Nat.eq_dec t 0) as [->|Ht0].
          + rewrite setAt_same in Ht by auto. discriminate.
          + rewrite setAt_other in Ht; auto.
        - rewrite nth_error_app2 in Ht by (rewrite setAt_length; lia).
          destruct (t - List.length (setAt c1 0 (IGoto (List.length c1)))) as [|[|?]];
            discriminate. }
      destruct (R2 t n Ht0) as (d & us & A & B & C). exists d, us.
      split; auto. split; auto. clear - C He Hok.
      revert C. generalize (S t). induction us as [|f us IH]; intros pc C; cbn in *.
      * apply He; auto. discriminate.
      * destruct C as [(e & C1 & C2) C3]. split; auto. exists e. split; auto.
        apply He; auto. discriminate.
Qed.

(** * Execution *)
Lemma bodyFrom_nth : forall l k f n us, bodyFrom k l f = Some (n, us) ->
  exists d, k <= n /\ nth_error l (n - k) = Some d /\ did d = f /\ dbody d = Some us.
Proof.
  induction l as [|d l IH]; intros k f n us H; cbn in H; [discriminate|].
  destruct (dbody d) as [us'|] eqn:Eb; [destruct (fidEqb (did d) f) eqn:E|].
  - injection H as <- <-. exists d. rewrite Nat.sub_diag. apply fidEqb_eq in E. auto.
  - apply IH in H. destruct H as (d' & H1 & H2 & H3). exists d'. split; [lia|].
    replace (n - k) with (S (n - S k)) by lia. auto.
  - apply IH in H. destruct H as (d' & H1 & H2 & H3). exists d'. split; [lia|].
    replace (n - k) with (S (n - S k)) by lia. auto.
Qed.

Lemma bodyFrom_none : forall l k f, bodyFrom k l f = None <->
  forall d, In d l -> did d = f -> dbody d = None.
Proof.
  induction l as [|d l IH]; intros k f; cbn.
  - split; auto. intros _ d [].
  - destruct (dbody d) as [us|] eqn:Eb; [destruct (fidEqb (did d) f) eqn:E|].
    + split; [discriminate|]. intros H. apply fidEqb_eq in E.
      rewrite (H d (or_introl eq_refl) E) in Eb. discriminate.
    + rewrite IH. split.
      * intros H d' [<-|Hd] Hf; auto. rewrite Hf, fidEqb_refl in E. discriminate.
      * intros H d' Hd. apply H. auto.
    + rewrite IH. split.
      * intros H d' [<-|Hd] Hf; auto.
      * intros H d' Hd. apply H. auto.
Qed.

Hypothesis Hfits : forall a d b, ds = a ++ d :: b -> fits a d.

Lemma body_unique : forall n d us, nth_error ds n = Some d -> dbody d = Some us ->
  bodyOf ds (did d) = Some (n, us).
Proof.
  intros n d us Hn Hb. unfold bodyOf.
  destruct (bodyFrom 0 ds (did d)) as [[m us']|] eqn:E.
  - apply bodyFrom_nth in E. destruct E as (d' & _ & H1 & H2 & H3).
    rewrite Nat.sub_0_r in H1.
    assert (K : forall n m d d' us us', nth_error ds n = Some d ->
      nth_error ds m = Some d' -> did d = did d' -> dbody d = Some us ->
      dbody d' = Some us' -> n < m -> False).
    { clear - Hfits. intros n m d d' us us' A B C D E F.
      apply nth_error_split in B. destruct B as (a & b & B1 & B2).
      assert (In d a).
      { rewrite B1 in A. rewrite nth_error_app1 in A by lia.
        eapply nth_error_In; eauto. }
      destruct (Hfits _ _ _ B1) as [G _]. destruct (G d H C). congruence. }
    destruct (lt_eq_lt_dec n m) as [[Hl|Hq]|Hl].
    + exfalso. eapply (K n m d d'); eauto.
    + subst m. rewrite Hn in H1. injection H1 as <-. congruence.
    + exfalso. eapply (K m n d' d); eauto.
  - rewrite bodyFrom_none in E. rewrite (E d) in Hb; auto; [discriminate|].
    eapply nth_error_In; eauto.
Qed.

Variables (ids : list ident) (c : list instr).
Hypothesis Hlk : linked ids c.

Definition R (s : sconf) (m : list nat) : Prop :=
  match s with
  | SRun s => Forall2 (codeAt c) m s
  | SCall f s => match m with
                 | [] => False
                 | pc :: rs => leads c pc f /\ Forall2 (codeAt c) rs s
                 end
  end.

Lemma target_step : forall t f rs s, target c t f -> Forall2 (codeAt c) rs s ->
  exists ev m1 s1, mstep c (t :: rs) = Some (ev, m1) /\
    sstep ds h (SCall f s) = Some (ev, s1) /\ R s1 m1.
Proof.
  intros t f rs s Ht Hs. destruct Ht as [(n & d & H1 & H2 & H3 & H4)|(x & H1 & H2 & H3 & H4)].
  - destruct Hlk as [_ HB]. destruct (HB t n H1) as (d' & us & A & B & C).
    rewrite H2 in A. injection A as <-.
    exists [EvBody n], (S t :: rs), (SRun (us :: s)). cbn [mstep sstep]. rewrite H1.
    split; auto. subst f. rewrite (body_unique n d us H2 B). split; auto.
    cbn [R]. constructor; auto.
  - exists [EvExt x], (S t :: rs), (SRun ([] :: s)). cbn [mstep sstep]. rewrite H1.
    split; auto. destruct H3 as [_ H3].
    rewrite (proj2 (bodyFrom_none ds 0 f) H3 : bodyOf ds f = None), H4. split; auto.
    cbn [R]. constructor; auto.
Qed.

Lemma target_not_goto : forall t f u, target c t f -> nth_error c t <> Some (IGoto u).
Proof.
  intros t f u [(n & d & H & _)|(x & H & _)]; rewrite H; discriminate.
Qed.

Lemma forward_step : forall s ev s1 m, sstep ds h s = Some (ev, s1) -> R s m ->
  exists m1, mstar c m ev m1 /\ R s1 m1.
Proof.
  intros s ev s1 m H HR. destruct s as [f s|s].
  - destruct m as [|pc rs]; [contradiction|]. destruct HR as [(t & Ht & Hg) HF].
    destruct (target_step t f rs s Hg HF) as (ev' & m1 & s1' & A & B & C).
    rewrite H in B. injection B as <- <-. exists m1. split; auto.
    assert (K : mstar c (t :: rs) ev m1).
    { rewrite <- (app_nil_r ev). econstructor; [exact A|]. constructor. }
    destruct Ht as [->|Ht]; auto.
    apply (M_step c (pc :: rs) [] (t :: rs) ev m1); auto. cbn. now rewrite Ht.
  - destruct s as [|us s]; [discriminate|]. inversion HR as [|pc ? rs ? Hc HF]; subst.
    destruct us as [|f us]; cbn in H; injection H as <- <-; cbn in Hc.
    + exists rs. split; auto. apply (M_step c (pc :: rs) [] rs [] rs); [|constructor].
      cbn. now rewrite Hc.
    + destruct Hc as [(e & H1 & H2) H3]. exists (e :: S pc :: rs). split.
      * apply (M_step c (pc :: rs) [] (e :: S pc :: rs) [] _); [|constructor].
        cbn. now rewrite H1.
      * cbn [R]. split; [auto|constructor; auto].
Qed.

Lemma backward_step : forall m ev m1 s, mstep c m = Some (ev, m1) -> R s m ->
  (ev = [] /\ R s m1) \/ exists s1, sstep ds h s = Some (ev, s1) /\ R s1 m1.
Proof.
  intros m ev m1 s H HR. destruct s as [f s|s].
  - destruct m as [|pc rs]; [contradiction|]. destruct HR as [(t & Ht & Hg) HF].
    destruct Ht as [->|Ht].
    + right. destruct (target_step pc f rs s Hg HF) as (ev' & m1' & s1' & A & B & C).
      rewrite H in A. injection A as <- <-. eauto.
    + left. cbn in H. rewrite Ht in H. injection H as <- <-. split; auto.
      cbn [R]. split; auto. exists t. auto.
  - inversion HR as [|pc us rs s' Hc HF]; subst; [discriminate|]. right.
    destruct us as [|f us]; cbn in Hc.
    + cbn in H. rewrite Hc in H. injection H as <- <-. exists (SRun s'). auto.
    + destruct Hc as [(e & H1 & H2) H3]. cbn in H. rewrite H1 in H.
      injection H as <- <-. exists (SCall f (us :: s')). split; auto.
      cbn [R]. split; [auto|constructor; auto].
Qed.

Lemma mstar_app : forall m t1 m1 t2 m2, mstar c m t1 m1 -> mstar c m1 t2 m2 ->
  mstar c m (t1 ++ t2) m2.
Proof.
  induction 1; intros K; auto. rewrite <- app_assoc. econstructor; eauto.
Qed.

Lemma forward : forall s tr s1, sstar ds h s tr s1 -> forall m, R s m ->
  exists m1, mstar c m tr m1 /\ R s1 m1.
Proof.
  induction 1 as [s|s ev s1 tr s2 H1 H2 IH]; intros m HR.
  - exists m. split; [constructor|auto].
  - destruct (forward_step _ _ _ _ H1 HR) as (m1 & A & B).
    destruct (IH _ B) as (m2 & C & D). exists m2. split; auto. eapply mstar_app; eauto.
Qed.

Lemma backward : forall m tr m1, mstar c m tr m1 -> forall s, R s m ->
  exists s1, sstar ds h s tr s1 /\ R s1 m1.
Proof.
  induction 1 as [m|m ev m1 tr m2 H1 H2 IH]; intros s HR.
  - exists s. split; [constructor|auto].
  - destruct (backward_step _ _ _ _ H1 HR) as [[-> K]|(s1 & A & B)].
    + cbn [app]. auto.
    + destruct (IH _ B) as (s2 & C & D). exists s2. split; auto. econstructor; eauto.
Qed.

Lemma progress : forall s m, R s m -> m = [] \/ exists x, mstep c m = Some x.
Proof.
  intros s m HR. destruct s as [f s|s].
  - destruct m as [|pc rs]; [contradiction|]. right.
    destruct HR as [(t & Ht & Hg) HF]. destruct Ht as [->|Ht].
    + destruct (target_step pc f rs s Hg HF) as (ev & m1 & s1 & A & _). eauto.
    + cbn. rewrite Ht. eauto.
  - inversion HR as [|pc us rs s' Hc HF]; subst; auto. right.
    destruct us as [|f us]; cbn in Hc.
    + cbn. rewrite Hc. eauto.
    + destruct Hc as [(e & H1 & _) _]. cbn. rewrite H1. eauto.
Qed.

Lemma calls : forall f i, findIn ids f = Some i ->
  (forall tr, (exists m, mstar c [ientry i] tr m) <->
              (exists s, sstar ds h (SCall f []) tr s)) /\
  (forall tr, mstar c [ientry i] tr [] <-> sstar ds h (SCall f []) tr (SRun [])) /\
  (forall tr m, mstar c [ientry i] tr m -> m = [] \/ exists x, mstep c m = Some x).
Proof.
  intros f i Hf.
  assert (HR : R (SCall f []) [ientry i]).
  { cbn [R]. split; [now apply (proj1 Hlk)|constructor]. }
  split; [|split].
  - intros tr. split.
    + intros (m & H). destruct (backward _ _ _ H _ HR) as (s & A & _). eauto.
    + intros (s & H). destruct (forward _ _ _ H _ HR) as (m & A & _). eauto.
  - intros tr. split; intros H.
    + destruct (backward _ _ _ H _ HR) as (s & A & B).
      destruct s as [g s|s]; [contradiction|]. cbn in B. inversion B; subst. auto.
    + destruct (forward _ _ _ H _ HR) as (m & A & B). cbn in B. inversion B; subst. auto.
  - intros tr m H. destruct (backward _ _ _ H _ HR) as (s & A & B).
    eapply progress; eauto.
Qed.

End Calls.

Lemma decl_no_ub : forall st n d, parseFnDecl st n d <> UB.
Proof.
  intros st n d. unfold parseFnDecl.
  destruct (identAddFn st d) as [st1| |] eqn:E; cbn [bind]; try discriminate.
  - assert (Hf : findIn (idents st1) (did d) <> None).
    { unfold identAddFn in E. destruct (findIn (idents st) (did d)) as [i|] eqn:Ef.
      - destruct (iproto i); [|discriminate]. destruct (_ && _); [|discriminate].
        injection E as <-. cbn [idents]. rewrite findIn_upd.
        + rewrite fidEqb_refl, Ef. discriminate.
        + apply findIn_iid in Ef. apply Ef.
      - injection E as <-. cbn [idents findIn iid]. rewrite fidEqb_refl. discriminate. }
    destruct (findIn (idents st1) (did d)) as [fn|]; [|congruence].
    destruct (dbody d) as [us|]; [|discriminate].
    assert (K : forall us st, compileUses st us <> UB).
    { clear. induction us as [|f us IH]; intros st; cbn [compileUses]; [discriminate|].
      destruct (findIn (idents st) f); [apply IH|discriminate]. }
    match goal with |- bind ?e _ <> _ => specialize (K us); destruct e eqn:E2 end;
      cbn [bind]; try discriminate.
    intros _. eapply K. exact E2.
  - unfold identAddFn in E. destruct (findIn (idents st) (did d)) as [i|];
      [|discriminate]. destruct (iproto i); [|discriminate].
    destruct (_ && _); discriminate.
Qed.

Lemma compile_no_ub : forall h res ds, compile h res ds <> UB.
Proof.
  intros h res ds. unfold compile.
  assert (K : forall ds st n, parseDecls st n ds <> UB).
  { clear. induction ds as [|d ds IH]; intros st n; cbn [parseDecls]; [discriminate|].
    pose proof (decl_no_ub st n d). destruct (parseFnDecl st n d); cbn [bind];
      try discriminate; auto. }
  assert (L : forall l r c, doResolveExtern h l r c <> UB).
  { clear. induction l as [|i l IH]; intros r c; cbn [doResolveExtern]; [discriminate|].
    destruct (iproto i); auto. destruct (extern h (bare (iid i))).
    - destruct (memNat _ _); cbn [bind]; [discriminate|].
      destruct (negb _); cbn [bind]; [discriminate|]. auto.
    - cbn [bind]. destruct (implLib h (bare (iid i))); [auto|discriminate]. }
  specialize (K ds (mkCst [] [INop]) 0). destruct (parseDecls _ _ ds) as [st| |];
    cbn [bind]; try discriminate; [|congruence].
  specialize (L (idents st) res (code st)).
  destruct (doResolveExtern _ _ _ _) as [[r c]| |]; cbn [bind]; try discriminate.
  congruence.
Qed.

Lemma accepts : forall h res ds,
  compile h res ds <> UB /\
  ((exists r, compile h res ds = Ok r) <-> wellFormed h res ds).
Proof. intros. split; [apply compile_no_ub|apply compile_ok]. Qed.

Lemma compile_calls : forall h res ds ids c, onceProto ds ->
  compile h res ds = Ok (ids, c) ->
  forall d, In d ds -> exists i, findIn ids (did d) = Some i /\
  (forall tr, (exists m, mstar c [ientry i] tr m) <->
              (exists s, sstar ds h (SCall (did d) []) tr s)) /\
  (forall tr, mstar c [ientry i] tr [] <->
              sstar ds h (SCall (did d) []) tr (SRun [])) /\
  (forall tr m, mstar c [ientry i] tr m -> m = [] \/ exists x, mstep c m = Some x).
Proof.
  intros h res ds ids c Ho H d Hd.
  assert (Hi : Inv1 ds ids).
  { unfold compile in H. destruct (parseDecls (mkCst [] [INop]) 0 ds) as [st| |] eqn:E;
      cbn [bind] in H; try discriminate.
    destruct (doResolveExtern h (idents st) res (code st)) as [[r c1]| |];
      cbn [bind] in H; try discriminate. injection H as <- _.
    apply (decls_inv1 ds [] (mkCst [] [INop]) 0 st inv1_init E). }
  destruct Hi as [_ Hi]. specialize (Hi (did d)).
  destruct (findIn ids (did d)) as [i|] eqn:Ef; [|exfalso; apply (Hi d); auto].
  exists i. split; auto.
  assert (Hw : wellFormed h res ds) by (apply compile_ok; eauto).
  eapply calls; eauto.
  - apply Hw.
  - eapply compile_linked; eauto.
Qed.

(** * A repeated prototype *)
Definition fn (n : nat) : fid := mkFid n None.
Definition noHost : host := mkHost (fun _ => None) (fun _ => true) (fun _ => None).

(** fn f(); fn h() {}; fn g() { f() }; fn f(); fn f() {} *)
Definition twice : list decl :=
  [ mkDecl (fn 0) 0 false None;
    mkDecl (fn 1) 0 false (Some []);
    mkDecl (fn 2) 0 false (Some [fn 0]);
    mkDecl (fn 0) 0 false None;
    mkDecl (fn 0) 0 false (Some []) ].

Lemma sstar_inv : forall ds h s tr s', sstar ds h s tr s' ->
  tr = [] \/ exists ev s1 tr', sstep ds h s = Some (ev, s1) /\ tr = ev ++ tr' /\
                              sstar ds h s1 tr' s'.
Proof.
  intros ds h s tr s' H. destruct H; [auto|]. right. eauto 8.
Qed.

Lemma twice_wrong : exists ids c i,
  compile noHost [] twice = Ok (ids, c) /\ findIn ids (fn 2) = Some i /\
  mstar c [ientry i] [EvBody 2; EvBody 1] [] /\
  sstar twice noHost (SCall (fn 2) []) [EvBody 2; EvBody 4] (SRun []) /\
  ~ exists s, sstar twice noHost (SCall (fn 2) []) [EvBody 2; EvBody 1] s.
Proof.
  do 3 eexists. split; [vm_compute; reflexivity|]. split; [reflexivity|].
  split; [|split].
  - cbn [ientry].
    change [EvBody 2; EvBody 1]
      with ([EvBody 2] ++ [] ++ [] ++ [EvBody 1] ++ [] ++ [] ++ @nil event).
    repeat (eapply M_step; [reflexivity|]). apply M_refl.
  - change [EvBody 2; EvBody 4]
      with ([EvBody 2] ++ [] ++ [EvBody 4] ++ [] ++ [] ++ @nil event).
    repeat (eapply S_step; [reflexivity|]). apply S_refl.
  - intros (s & H).
    apply sstar_inv in H. destruct H as [H|(ev & s1 & tr & H1 & H2 & H)]; [discriminate|].
    cbn in H1. injection H1 as <- <-. cbn in H2. injection H2 as <-.
    apply sstar_inv in H. destruct H as [H|(ev & s1 & tr & H1 & H2 & H)]; [discriminate|].
    cbn in H1. injection H1 as <- <-. cbn in H2. subst tr.
    apply sstar_inv in H. destruct H as [H|(ev & s1 & tr & H1 & H2 & H)]; [discriminate|].
    cbn in H1. injection H1 as <- <-. cbn in H2. discriminate.
Qed.

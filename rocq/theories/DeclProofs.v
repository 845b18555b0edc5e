(** Proofs about enumerations, constant groups and expression lists. *)
From Coq Require Import ZArith Lia Bool List String.
From Coq Require Import ZifyBool.
From Verif Require Import Base NumModel NumSpec DeclModel DeclSpec.
Import ListNotations.
Local Open Scope Z_scope.

(** ** Enumerations *)
(** An explicit value: a legitimate value of its integer type; if it or the base type is uint, below 2^63. *)
Definition explOk (base : kind) (it : eitem) : Prop :=
  match snd it with
  | None => True
  | Some (k, v) => kindIntegerOrEnum k = true /\ holds k v /\ (base = KUInt \/ k = KUInt -> 0 <= v)
  end.

Lemma range_overflow : forall base v, kindIntegerOrEnum base = true -> in_s64 v -> (base = KUInt -> 0 <= v) ->
  (typeOverflow base v = false <-> in_range base v).
Proof.
  unfold in_s64, INT64_MIN, INT64_MAX. intros base v K S U.
  destruct base; try discriminate K; unfold typeOverflow, typeConvOverflow, in_range, range; cbn [kindSigned];
    rewrite ?andb_false_r, ?orb_false_r; unfold two63 in *; try lia.
  all: specialize (U eq_refl); split; [lia|reflexivity].
Qed.

Lemma denote_small : forall k v, in_s64 v -> (k = KUInt -> 0 <= v) -> denote k v = v.
Proof.
  unfold in_s64, INT64_MIN, INT64_MAX. intros k v S U. destruct k; try reflexivity.
  cbn. specialize (U eq_refl). rewrite Z.mod_small; unfold two63 in *; lia.
Qed.

Definition agrees (cs : list (string * Z)) (ns : list string) (vs : list Z) : Prop := map fst cs = ns /\ map snd cs = vs.

Lemma findName : forall cs n, typeFindEnumConst cs n = false <-> ~ In n (map fst cs).
Proof.
  unfold typeFindEnumConst. intros. rewrite <- Bool.not_true_iff_false, existsb_exists. split; intros H K; apply H.
  - apply in_map_iff in K. destruct K as (c & E & I). exists c. split; [exact I|]. apply String.eqb_eq, E.
  - destruct K as (c & I & E). apply String.eqb_eq in E. subst n. apply in_map, I.
Qed.
Lemma findVal : forall cs v, typeFindEnumConstByVal cs v = false <-> ~ In v (map snd cs).
Proof.
  unfold typeFindEnumConstByVal. intros. rewrite <- Bool.not_true_iff_false, existsb_exists. split; intros H K; apply H.
  - apply in_map_iff in K. destruct K as (c & E & I). exists c. split; [exact I|]. apply Z.eqb_eq, E.
  - destruct K as (c & I & E). apply Z.eqb_eq in E. subst v. apply in_map, I.
Qed.

Lemma addEnum : forall cs n v,
  match typeAddEnumConst cs n v with
  | Ok cs1 => cs1 = cs ++ [(n, v)] /\ ~ In n (map fst cs) /\ ~ In v (map snd cs)
  | Err _ => In n (map fst cs) \/ In v (map snd cs)
  | UB => False
  end.
Proof.
  intros. unfold typeAddEnumConst.
  destruct (typeFindEnumConst cs n) eqn:E.
  { left. destruct (in_dec string_dec n (map fst cs)) as [I|I]; [exact I|]. apply findName in I. congruence. }
  destruct (typeFindEnumConstByVal cs v) eqn:F.
  { right. destruct (in_dec Z.eq_dec v (map snd cs)) as [I|I]; [exact I|]. apply findVal in I. congruence. }
  apply findName in E. apply findVal in F. auto.
Qed.

Lemma nodup_snoc : forall {A} (l : list A) x, NoDup (l ++ [x]) <-> NoDup l /\ ~ In x l.
Proof.
  intros. split.
  - intros H. apply NoDup_remove in H. rewrite app_nil_r in H. exact H.
  - intros [H I]. apply (NoDup_Add (a := x) (l := l)); [|auto].
    rewrite <- (app_nil_r l) at 1. apply Add_app.
Qed.

Lemma nodup_cons_app : forall {A} (l : list A) x r, NoDup (l ++ x :: r) <-> NoDup ((l ++ [x]) ++ r).
Proof. intros. rewrite <- app_assoc. reflexivity. Qed.

Lemma last_cons : forall {A} (l : list A) x d, last (x :: l) d = last l x.
Proof.
  induction l as [|y l IH]; intros; [reflexivity|]. transitivity (last (y :: l) d); [reflexivity|].
  rewrite IH. symmetry. apply IH.
Qed.

(** The state reached by the loop: the constants so far, with unique names and values. *)
Lemma enum_loop : forall base its cs c,
  kindIntegerOrEnum base = true -> Forall (explOk base) its ->
  in_s64 c -> (base = KUInt -> -1 <= c) ->
  NoDup (map fst cs) -> NoDup (map snd cs) ->
  match parseEnumItems base (cs, c) its with
  | Ok (cs1, _) => exists vs, enumVals base c its vs /\ cs1 = cs ++ combine (map fst its) vs /\ NoDup (map fst cs1) /\ NoDup (map snd cs1)
  | Err _ => forall vs, enumVals base c its vs -> ~ (NoDup (map fst cs ++ map fst its) /\ NoDup (map snd cs ++ vs))
  | UB => exists l n r vs, its = l ++ (n, None) :: r /\ enumVals base c l vs /\ last vs c = 9223372036854775807
  end.
Proof.
  intros base its. induction its as [|[n e] r IH]; intros cs c K F S U N1 N2.
  { cbn. exists []. split; [constructor|]. rewrite app_nil_r. auto. }
  inversion F as [|x y Fx Fr]; subst. cbn [parseEnumItems parseEnumItem snd fst].
  destruct e as [[k v]|].
  - destruct Fx as (Kk & Hk & Uk). cbn in Kk. rewrite Kk. cbn [bind].
    destruct Hk as (Sv & Rv).
    assert (D : denote k v = v) by (apply denote_small; [exact Sv|]; intros ->; apply Uk; auto).
    assert (Ub : base = KUInt -> 0 <= v) by (intros ->; apply Uk; auto).
    destruct (typeOverflow base v) eqn:O.
    { cbn [bind]. intros vs H. inversion H; subst. intros _. rewrite D in *.
      assert (typeOverflow base v = false) by (apply range_overflow; auto). congruence. }
    apply range_overflow in O; auto.
    pose proof (addEnum cs n v) as A. destruct (typeAddEnumConst cs n v) as [cs1|er|]; [|cbn [bind]|contradiction].
    + cbn [bind]. destruct A as (-> & A1 & A2).
      assert (M1 : NoDup (map fst (cs ++ [(n, v)]))) by (rewrite map_app; apply nodup_snoc; auto).
      assert (M2 : NoDup (map snd (cs ++ [(n, v)]))) by (rewrite map_app; apply nodup_snoc; auto).
      specialize (IH (cs ++ [(n, v)]) v K Fr Sv ltac:(intros B; specialize (Ub B); lia) M1 M2).
      destruct (parseEnumItems base (cs ++ [(n, v)], v) r) as [[cs2 c2]|er|].
      * destruct IH as (vs & V & -> & M3 & M4). exists (v :: vs).
        rewrite <- app_assoc in *. split; [|auto]. rewrite <- D at 2. apply ev_expl; rewrite ?D; auto. rewrite <- D; exact Rv.
      * intros vs H. inversion H; subst. rewrite D in *. intros [B1 B2].
        apply (IH vs0); auto. rewrite !map_app. cbn [map fst snd] in *. rewrite <- !nodup_cons_app. auto.
      * destruct IH as (l & n1 & r1 & vs & -> & V & L). exists ((n, Some (k, v)) :: l), n1, r1, (v :: vs).
        split; [reflexivity|]. split.
        { rewrite <- D at 2. apply ev_expl; rewrite ?D; auto. rewrite <- D; exact Rv. }
        rewrite last_cons. exact L.
    + intros vs H. inversion H; subst. rewrite D in *. intros [B1 B2]. cbn [map fst] in B1.
      apply NoDup_remove_2 in B1. apply NoDup_remove_2 in B2. rewrite in_app_iff in B1, B2. tauto.
  - unfold chk64, in_s64b, in_s64, INT64_MIN, INT64_MAX in *.
    destruct ((- two63 <=? c + 1) && (c + 1 <=? two63 - 1)) eqn:C.
    2:{ cbn [bind]. exists [], n, r, []. split; [reflexivity|]. split; [constructor|]. cbn. unfold two63 in *; lia. }
    cbn [bind].
    assert (S1 : in_s64 (c + 1)) by (unfold in_s64, INT64_MIN, INT64_MAX, two63 in *; lia).
    assert (Ub : base = KUInt -> 0 <= c + 1) by (intros B; specialize (U B); lia).
    destruct (typeOverflow base (c + 1)) eqn:O.
    { cbn [bind]. intros vs H. inversion H; subst. intros _.
      assert (typeOverflow base (c + 1) = false) by (apply range_overflow; auto). congruence. }
    apply range_overflow in O; auto.
    pose proof (addEnum cs n (c + 1)) as A. destruct (typeAddEnumConst cs n (c + 1)) as [cs1|er|]; [|cbn [bind]|contradiction].
    + cbn [bind]. destruct A as (-> & A1 & A2).
      assert (M1 : NoDup (map fst (cs ++ [(n, c + 1)]))) by (rewrite map_app; apply nodup_snoc; auto).
      assert (M2 : NoDup (map snd (cs ++ [(n, c + 1)]))) by (rewrite map_app; apply nodup_snoc; auto).
      specialize (IH (cs ++ [(n, c + 1)]) (c + 1) K Fr S1 ltac:(intros B; specialize (Ub B); lia) M1 M2).
      destruct (parseEnumItems base (cs ++ [(n, c + 1)], c + 1) r) as [[cs2 c2]|er|].
      * destruct IH as (vs & V & -> & M3 & M4). exists ((c + 1) :: vs).
        rewrite <- app_assoc in *. split; [|auto]. apply ev_auto; auto.
      * intros vs H. inversion H; subst. intros [B1 B2].
        apply (IH vs0); auto. rewrite !map_app. cbn [map fst snd] in *. rewrite <- !nodup_cons_app. auto.
      * destruct IH as (l & n1 & r1 & vs & -> & V & L). exists ((n, None) :: l), n1, r1, ((c + 1) :: vs).
        split; [reflexivity|]. split; [apply ev_auto; auto|].
        rewrite last_cons. exact L.
    + intros vs H. inversion H; subst. intros [B1 B2]. cbn [map fst] in B1.
      apply NoDup_remove_2 in B1. apply NoDup_remove_2 in B2. rewrite in_app_iff in B1, B2. tauto.
Qed.

Lemma enumVals_len : forall base p its vs, enumVals base p its vs -> List.length (map fst its) = List.length vs.
Proof. induction 1; cbn; congruence. Qed.
Lemma enumVals_det : forall base p its vs, enumVals base p its vs -> forall ws, enumVals base p its ws -> vs = ws.
Proof. induction 1; intros ws W; inversion W; subst; f_equal; auto. Qed.

Lemma enum_thm : forall base its, kindIntegerOrEnum base = true -> Forall (explOk base) its ->
  match parseEnumType base its with
  | Ok cs => enumOk base its cs
  | Err _ => forall cs, ~ enumOk base its cs
  | UB => enumEdge base its
  end.
Proof.
  intros base its K F. unfold parseEnumType. rewrite K. cbn [negb].
  pose proof (enum_loop base its [] (-1) K F) as H. unfold in_s64, INT64_MIN, INT64_MAX in H.
  specialize (H ltac:(unfold two63; lia) ltac:(lia) (NoDup_nil _) (NoDup_nil _)).
  destruct (parseEnumItems base ([], -1) its) as [[cs c]|er|]; cbn [bind fst].
  - destruct H as (vs & V & E & N1 & N2). cbn [app] in E. subst cs.
    pose proof (enumVals_len _ _ _ _ V) as L.
    assert (M1 : map fst (combine (map fst its) vs) = map fst its).
    { revert vs L V N1 N2. generalize (map fst its) as ns. induction ns; intros [|v vs] L V N1 N2; cbn in *; try congruence; try lia.
      f_equal. clear - L. assert (G : List.length ns = List.length vs) by lia. clear L. revert vs G.
      induction ns; intros [|w ws] G; cbn in *; try congruence; try lia. f_equal. apply IHns. lia. }
    assert (M2 : map snd (combine (map fst its) vs) = vs).
    { clear - L. revert vs L. generalize (map fst its) as ns. induction ns; intros [|v vs] L; cbn in *; try congruence; try lia.
      f_equal. apply IHns. lia. }
    rewrite M1 in N1. rewrite M2 in N2.
    destruct (typeFindEnumConstByVal (combine (map fst its) vs) 0) eqn:Z0.
    + exists vs. split; [exact V|]. split; [exact N1|]. split; [exact N2|]. left. split; [|reflexivity].
      destruct (in_dec Z.eq_dec 0 vs) as [I|I]; [exact I|]. rewrite <- M2 in I. apply findVal in I. congruence.
    + apply findVal in Z0. rewrite M2 in Z0.
      pose proof (addEnum (combine (map fst its) vs) "zero" 0) as A.
      destruct (typeAddEnumConst (combine (map fst its) vs) "zero" 0) as [cs1|er|]; [| |contradiction]; rewrite M1, M2 in A.
      * destruct A as (-> & A1 & A2). exists vs. split; [exact V|]. split; [exact N1|]. split; [exact N2|]. right. auto.
      * intros cs (ws & W & _ & _ & [[I _]|(I & J & _)]); rewrite <- (enumVals_det _ _ _ _ V _ W) in I; tauto.
  - intros cs (ws & W & P1 & P2 & _). apply (H ws W). cbn. auto.
  - destruct H as (l & n & r & vs & -> & V & L). exists l, n, r, vs. auto.
Qed.

(** ** Constant groups *)
Definition cexplOk (e : option (ctype * Z)) : Prop :=
  match e with Some (t, v) => in_s64 v /\ (ckind t = KUInt -> 0 <= v) | None => True end.

Lemma const_loop : forall es st,
  Forall cexplOk es -> match st with Some (t, v) => in_s64 v /\ (ckind t = KUInt -> 0 <= v) | None => True end ->
  match parseConstDecl st es with
  | Ok cs => constVals st es cs
  | Err _ => forall cs, ~ constVals st es cs
  | UB => exists l r vs t, es = l ++ None :: r /\ constVals st l vs /\ typeInteger t = true /\
            last vs (match st with Some x => x | None => (t, 0) end) = (t, 9223372036854775807)
  end.
Proof.
  induction es as [|e r IH]; intros st F S; cbn [parseConstDecl].
  { constructor. }
  inversion F as [|x y Fe Fr]; subst.
  assert (EXPL : forall t v, e = Some (t, v) -> denote (ckind t) v = v).
  { intros t v ->. cbn in Fe; apply denote_small; tauto. }
  assert (STEP : match parseConstDeclItem st e with
     | Ok c => (forall w cs, constVals st (e :: w) cs <-> exists cs1, cs = c :: cs1 /\ constVals (Some c) w cs1) /\
               (let (t, v) := c in in_s64 v /\ (ckind t = KUInt -> 0 <= v))
     | Err _ => forall cs, ~ constVals st (e :: r) cs
     | UB => e = None /\ exists t, typeInteger t = true /\ st = Some (t, 9223372036854775807)
     end).
  { unfold parseConstDeclItem. destruct e as [[t v]|].
    - assert (G : match (if constTypeOk (ckind t) then Ok (t, v) else Err EIllegalType) with
         | Ok c => (forall w cs, constVals st (Some (t, v) :: w) cs <-> exists cs1, cs = c :: cs1 /\ constVals (Some c) w cs1) /\
               (let (t, v) := c in in_s64 v /\ (ckind t = KUInt -> 0 <= v))
         | Err _ => forall cs, ~ constVals st (Some (t, v) :: r) cs
         | UB => Some (t, v) = None /\ exists t, typeInteger t = true /\ st = Some (t, 9223372036854775807)
         end).
      { destruct (constTypeOk (ckind t)) eqn:C.
        - split; [|exact Fe]. intros w cs. specialize (EXPL t v eq_refl). split.
          + intros H. inversion H; subst. rewrite EXPL in *. eauto.
          + intros (cs1 & -> & H). rewrite <- EXPL at 2. apply cv_expl; [exact C|]. rewrite EXPL. exact H.
        - intros cs H. inversion H; subst. congruence. }
      destruct st as [[? ?]|]; exact G.
    - destruct st as [[t c]|].
      2:{ intros cs H. inversion H. }
      destruct (typeInteger t) eqn:T.
      2:{ intros cs H. inversion H; subst. congruence. }
      destruct S as (S & U). unfold in_s64, INT64_MIN, INT64_MAX in S. unfold chk64, in_s64b, INT64_MIN, INT64_MAX.
      destruct ((- two63 <=? c + 1) && (c + 1 <=? two63 - 1)) eqn:C.
      2:{ cbn [bind]. split; [reflexivity|]. exists t. split; [exact T|]. do 2 f_equal. unfold two63 in *. lia. }
      cbn [bind].
      assert (S1 : in_s64 (c + 1)) by (unfold in_s64, INT64_MIN, INT64_MAX, two63 in *; lia).
      assert (K : kindIntegerOrEnum (ckind t) = true) by (unfold typeInteger in T; apply andb_true_iff in T; apply T).
      assert (U1 : ckind t = KUInt -> 0 <= c + 1) by (intros B; specialize (U B); lia).
      pose proof (range_overflow (ckind t) (c + 1) K S1 U1) as R.
      destruct (typeOverflow (ckind t) (c + 1)) eqn:O.
      + intros cs H. inversion H; subst. match goal with X : in_range _ _ |- _ => apply R in X; discriminate X end.
      + split; [|auto]. intros w cs. split.
        * intros H. inversion H; subst. eauto.
        * intros (cs1 & -> & H). apply cv_auto; auto. apply R. reflexivity. }
  destruct (parseConstDeclItem st e) as [[t c]|er|]; cbn [bind].
  - destruct STEP as (STEP & Sc). specialize (IH (Some (t, c)) Fr Sc).
    destruct (parseConstDecl (Some (t, c)) r) as [cs|er|]; cbn [bind].
    + apply STEP. eauto.
    + intros cs H. apply STEP in H. destruct H as (cs1 & _ & H). exact (IH _ H).
    + destruct IH as (l & r1 & vs & t1 & -> & V & T & L).
      exists (e :: l), r1, ((t, c) :: vs), t1. split; [reflexivity|]. split; [|split; [exact T|]].
      * apply STEP. eauto.
      * rewrite last_cons. exact L.
  - exact STEP.
  - destruct STEP as (-> & t & T & ->). exists [], r, [], t. split; [reflexivity|]. split; [constructor|]. auto.
Qed.

(** ** Expression lists *)
Section LISTS.
  Context {T V : Type}.
  Variable isList : T -> bool.
  Variable conv : nat -> T -> V -> outcome (T * V).
  Variable vdef : V.
  Hypothesis convDef : forall i t v, conv i t v <> UB.

  Lemma bufSet_spec : forall (buf : list V) i v, List.length buf = 16%nat -> (i < 16)%nat ->
    exists b, bufSet buf i v = Ok b /\ List.length b = 16%nat /\ firstn (S i) b = firstn i buf ++ [v] /\ nth i b vdef = v.
  Proof.
    intros buf i v L I. unfold bufSet, MAX_IDENTS_IN_LIST.
    destruct (Nat.ltb_spec i 16); [|lia].
    eexists. split; [reflexivity|].
    assert (Li : List.length (firstn i buf) = i) by (rewrite firstn_length; lia).
    repeat split.
    - rewrite app_length, Li. cbn [List.length]. rewrite skipn_length. lia.
    - rewrite firstn_app, Li. replace (S i - i)%nat with 1%nat by lia. rewrite firstn_firstn.
      replace (Nat.min (S i) i) with i by lia. reflexivity.
    - rewrite app_nth2; rewrite Li; [|lia]. rewrite Nat.sub_diag. reflexivity.
  Qed.

  Lemma list_loop : forall rest isConst fields buf t v,
    Forall (fun e => e <> UB) rest ->
    (List.length fields < 16)%nat -> List.length buf = 16%nat ->
    (isConst = true -> firstn (List.length fields) buf = map snd fields /\ nth (List.length fields) buf vdef = v) ->
    match exprListLoop isList conv vdef isConst fields buf (t, v) rest with
    | Ok (fs, b) => (List.length fields + 1 + List.length rest <= 16)%nat /\
        (isConst = true -> firstn (List.length fs) b = map snd fs) /\
        exists cs fs1, rest = map Ok cs /\ fs = fields ++ fs1 /\ convAll isList conv (List.length fields) ((t, v) :: cs) fs1
    | Err _ => (List.length fields + 1 + List.length rest <= 16)%nat -> forall cs fs1, rest = map Ok cs -> ~ convAll isList conv (List.length fields) ((t, v) :: cs) fs1
    | UB => isConst = true /\ (16 < List.length fields + 1 + List.length rest)%nat
    end.
  Proof.
    induction rest as [|e r IH]; intros isConst fields buf t v F NF LB B; cbn [exprListLoop fst snd].
    - assert (EV : (if isConst then nth (List.length fields) buf vdef else v) = v) by (destruct isConst; [apply B; reflexivity|reflexivity]).
      rewrite EV. destruct (conv (List.length fields) t v) as [f|er|] eqn:C; [|cbn [bind]|destruct (convDef _ _ _ C)].
      2:{ intros _ cs fs1 _ H. inversion H; subst. congruence. }
      cbn [bind].
      destruct (bufSet_spec buf (List.length fields) (snd f) LB NF) as (b & Eb & Lb & Fb & Nb).
      assert (X : exists b1, (if isConst then bufSet buf (List.length fields) (snd f) else Ok buf) = Ok b1 /\
                  (isConst = true -> firstn (List.length (fields ++ [f])) b1 = map snd (fields ++ [f]))).
      { destruct isConst; [exists b|exists buf]; (split; [auto|]); intros H; [|discriminate].
        rewrite app_length, Nat.add_1_r, Fb. rewrite map_app. destruct (B eq_refl) as (-> & _). reflexivity. }
      destruct X as (b1 & -> & X). cbn [bind].
      destruct (isList (fst f)) eqn:IL.
      { intros _ cs fs1 _ H. inversion H; subst. congruence. }
      destruct (Nat.leb_spec MAX_IDENTS_IN_LIST (List.length fields)); [unfold MAX_IDENTS_IN_LIST in *; lia|].
      split; [cbn; lia|]. split; [exact X|].
      exists [], [f]. repeat split; auto. constructor; auto. constructor.
    - assert (EV : (if isConst then nth (List.length fields) buf vdef else v) = v) by (destruct isConst; [apply B; reflexivity|reflexivity]).
      rewrite EV. destruct (conv (List.length fields) t v) as [f|er|] eqn:C; [|cbn [bind]|destruct (convDef _ _ _ C)].
      2:{ intros _ cs fs1 _ H. inversion H; subst. congruence. }
      cbn [bind].
      destruct (bufSet_spec buf (List.length fields) (snd f) LB NF) as (b & Eb & Lb & Fb & Nb).
      assert (X : exists b1, (if isConst then bufSet buf (List.length fields) (snd f) else Ok buf) = Ok b1 /\ List.length b1 = 16%nat /\
                  (isConst = true -> firstn (List.length (fields ++ [f])) b1 = map snd (fields ++ [f]))).
      { destruct isConst; [exists b|exists buf]; (split; [auto|]); (split; [auto|]); intros H; [|discriminate].
        rewrite app_length, Nat.add_1_r, Fb. rewrite map_app. destruct (B eq_refl) as (-> & _). reflexivity. }
      destruct X as (b1 & -> & L1 & X). cbn [bind].
      destruct (isList (fst f)) eqn:IL.
      { intros _ cs fs1 _ H. inversion H; subst. congruence. }
      destruct (Nat.leb_spec MAX_IDENTS_IN_LIST (List.length fields)); [unfold MAX_IDENTS_IN_LIST in *; lia|].
      inversion F as [|x y Fe Fr]; subst.
      destruct e as [[t2 v2]|er|]; [|cbn [bind]|destruct (Fe eq_refl)].
      2:{ intros _ cs fs1 E _. destruct cs; discriminate E. }
      cbn [bind snd].
      assert (LF : List.length (fields ++ [f]) = S (List.length fields)) by (rewrite app_length; cbn; lia).
      destruct (Nat.eq_dec (S (List.length fields)) 16) as [E16|N16].
      + (* the 17th expression *)
        destruct isConst.
        * unfold bufSet. rewrite LF. destruct (Nat.ltb_spec (S (List.length fields)) MAX_IDENTS_IN_LIST); [unfold MAX_IDENTS_IN_LIST in *; lia|].
          cbn [bind]. split; [reflexivity|]. cbn. lia.
        * cbn [bind]. clear IH.
          assert (G : match exprListLoop isList conv vdef false (fields ++ [f]) b1 (t2, v2) r with Err _ => True | _ => False end).
          { destruct r; cbn [exprListLoop fst snd]; rewrite LF;
              destruct (conv (S (List.length fields)) t2 v2) as [f2|er|] eqn:C2; cbn [bind]; try exact Logic.I;
              try (destruct (convDef _ _ _ C2)); destruct (isList (fst f2)); try exact Logic.I;
              (destruct (Nat.leb_spec MAX_IDENTS_IN_LIST (S (List.length fields))); [exact Logic.I|unfold MAX_IDENTS_IN_LIST in *; lia]). }
          destruct (exprListLoop isList conv vdef false (fields ++ [f]) b1 (t2, v2) r) as [[? ?]|er|]; [contradiction| |contradiction].
          cbn [List.length]. intros; lia.
      + assert (Y : exists b2, (if isConst then bufSet b1 (List.length (fields ++ [f])) v2 else Ok b1) = Ok b2 /\ List.length b2 = 16%nat /\
           (isConst = true -> firstn (List.length (fields ++ [f])) b2 = map snd (fields ++ [f]) /\ nth (List.length (fields ++ [f])) b2 vdef = v2)).
        { destruct isConst; [|exists b1; split; [reflexivity|]; split; [auto|discriminate]].
          destruct (bufSet_spec b1 (List.length (fields ++ [f])) v2 L1 ltac:(lia)) as (b2 & E2 & L2 & F2 & N2).
          exists b2. split; [exact E2|]. split; [exact L2|]. intros _. split; [|exact N2].
          apply (f_equal (firstn (List.length (fields ++ [f])))) in F2. rewrite firstn_firstn in F2.
          replace (Nat.min (List.length (fields ++ [f])) (S (List.length (fields ++ [f])))) with (List.length (fields ++ [f])) in F2 by lia.
          rewrite F2. rewrite X by reflexivity. rewrite firstn_app, map_length, Nat.sub_diag, firstn_O, app_nil_r.
          rewrite <- (map_length snd) at 1. apply firstn_all. }
        destruct Y as (b2 & -> & L2 & Y). cbn [bind].
        specialize (IH isConst (fields ++ [f]) b2 t2 v2 Fr ltac:(lia) L2 Y). rewrite LF in IH.
        destruct (exprListLoop isList conv vdef isConst (fields ++ [f]) b2 (t2, v2) r) as [[fs b3]|er|].
        * destruct IH as (I1 & I2 & cs & fs1 & -> & -> & I3). split; [cbn [List.length]; lia|]. split; [exact I2|].
          exists ((t2, v2) :: cs), (f :: fs1). rewrite <- app_assoc. repeat split; auto. constructor; auto.
        * cbn [List.length]. intros LE cs fs1 E HC. destruct cs as [|c cs]; [discriminate E|]. injection E as <- ->.
          inversion HC; subst. assert (f0 = f) by congruence; subst. eapply (IH ltac:(lia) cs fs eq_refl). eassumption.
        * cbn [List.length]. destruct IH. split; [auto|lia].
  Qed.

  Lemma convAll_len : forall i cs fs, convAll isList conv i cs fs -> List.length cs = List.length fs.
  Proof. induction 1; cbn; congruence. Qed.

  Lemma combine_firstn_eq : forall (fs : list (T * V)) (b : list V), firstn (List.length fs) b = map snd fs -> combine (map fst fs) b = fs.
  Proof.
    induction fs as [|[t v] fs IH]; intros b H; [reflexivity|].
    destruct b as [|w b]; [discriminate H|]. cbn in H. injection H as -> H. cbn. f_equal. apply IH, H.
  Qed.

  Lemma list_thm : forall isConst e es, Forall (fun x => x <> UB) (e :: es) ->
    match parseExprList isList conv vdef isConst e es with
    | Ok fs => listOk isList conv (e :: es) fs
    | Err _ => forall fs, ~ listOk isList conv (e :: es) fs
    | UB => isConst = true /\ (16 < List.length (e :: es))%nat
    end.
  Proof.
    intros isConst e es F. inversion F as [|x y Fe Fr]; subst. unfold parseExprList.
    destruct e as [[t v]|er|]; [|cbn [bind]|destruct (Fe eq_refl)].
    2:{ intros fs [(c & E & _)|(_ & cs & E & _)]; [discriminate E|]. destruct cs; discriminate E. }
    cbn [bind]. destruct es as [|e2 r].
    { left. eauto. }
    assert (B : exists b, (if isConst then bufSet (repeat vdef MAX_IDENTS_IN_LIST) 0 v else Ok (repeat vdef MAX_IDENTS_IN_LIST)) = Ok b /\
                List.length b = 16%nat /\ (isConst = true -> firstn 0 b = @map (T * V) V snd [] /\ nth 0 b vdef = v)).
    { destruct isConst.
      - destruct (bufSet_spec (repeat vdef MAX_IDENTS_IN_LIST) 0 v eq_refl ltac:(lia)) as (b & E & L & _ & N).
        exists b. split; [exact E|]. split; [exact L|]. intros _. split; [reflexivity|exact N].
      - exists (repeat vdef MAX_IDENTS_IN_LIST). split; [reflexivity|]. split; [reflexivity|discriminate]. }
    destruct B as (b & EB & LB & NB). cbn [snd] in *. rewrite EB. cbn [bind].
    pose proof (list_loop (e2 :: r) isConst [] b t v Fr ltac:(cbn; lia) LB NB) as H.
    destruct (exprListLoop isList conv vdef isConst [] b (t, v) (e2 :: r)) as [[fs b2]|er|]; cbn [bind fst snd].
    - destruct H as (H1 & H2 & cs & fs1 & H3 & H4 & H5). cbn [app] in H4. subst fs1.
      assert (G : listOk isList conv (Ok (t, v) :: e2 :: r) fs).
      { right. cbn [List.length] in *. split; [lia|]. exists ((t, v) :: cs). rewrite H3. auto. }
      destruct isConst; [|exact G]. rewrite combine_firstn_eq; auto.
    - intros fs [(c & E & _)|(L & cs & E & G)]; [discriminate E|].
      destruct cs as [|c cs]; [discriminate E|]. injection E as <- E. cbn [List.length] in *.
      eapply (H ltac:(lia) cs fs E). exact G.
    - cbn [List.length] in *. destruct H; split; [auto|lia].
  Qed.
End LISTS.

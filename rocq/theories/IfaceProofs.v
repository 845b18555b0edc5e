(** Interfaces: the code dispatches to the methods of the dynamic type. *)
From Coq Require Import ZArith Lia Bool List.
From Verif Require Import Base IfaceModel IfaceSpec.
Import ListNotations.
Local Open Scope Z_scope.

Scheme expr_ind2 := Induction for expr Sort Prop with exprs_ind2 := Induction for exprs Sort Prop.
Combined Scheme expr_mut from expr_ind2, exprs_ind2.

Section Proofs.
Variables T S : Type.
Variable find : T -> nat -> option (Z * S).
Variable isNull : T -> bool.
Variable compat : S -> S -> bool.
Variable equiv : T -> T -> bool.
Variable tab : nat -> list (nat * S).
Variable eff : Z -> list (val T) -> (nat -> val T) -> (nat -> val T) * val T * val T.
Notation val := (val T).
Notation iface := (iface S).
Notation meths := (meths S tab).
Notation findField := (findField S).
Notation state := (state T).
Notation exec := (exec T equiv eff).
Notation entry := (entry T S find isNull).
Notation content := (content T S).
Notation holds := (holds T S find isNull tab).
Notation good := (good T S find isNull tab).
Notation genSource := (genSource T S find isNull compat tab).
Notation staticType := (staticType T S).
Notation width := (width S tab).

(** * Fields *)
Lemma findField_nth l : forall n j s, findField l n = Some (j, s) -> nth_error l j = Some (n, s).
Proof.
  induction l as [|[m s0] l IH]; intros n j s; cbn [IfaceModel.findField]; [discriminate|]. destruct (Nat.eqb_spec m n) as [->|].
  - intros [= <- <-]. reflexivity.
  - destruct (findField l n) as [[k s1]|] eqn:E; [|discriminate]. intros [= <- <-]. cbn. now apply IH.
Qed.
Lemma findField_none l n : findField l n = None <-> ~ In n (map fst l).
Proof.
  induction l as [|[m s0] l IH]; cbn [IfaceModel.findField map fst In]; [tauto|]. destruct (Nat.eqb_spec m n) as [->|N]; [split; [discriminate|tauto]|].
  destruct (findField l n) as [[k s1]|]; split; try discriminate; try tauto.
  intros H. exfalso. assert (Some (k, s1) = None) by (apply IH; tauto). discriminate.
Qed.
Lemma findField_in l n s : NoDup (map fst l) -> In (n, s) l -> exists j, findField l n = Some (j, s).
Proof.
  induction l as [|[m s0] l IH]; cbn [IfaceModel.findField map fst In]; [tauto|]. intros Nd [E|I].
  - injection E as -> ->. rewrite Nat.eqb_refl. eauto.
  - inversion Nd as [|? ? N1 N2]; subst. destruct (Nat.eqb_spec m n) as [->|N]; [exfalso; apply N1; now apply (in_map fst) in I|]. destruct (IH N2 I) as (j & ->). eauto.
Qed.
Lemma sameFields_nth a : forall b, sameFields S compat a b = true -> forall j n s, nth_error a j = Some (n, s) -> exists s', nth_error b j = Some (n, s') /\ compat s s' = true.
Proof.
  induction a as [|[n s] a IH]; intros [|[m r] b] H j n0 s0 N; cbn in H; try discriminate; destruct j; try discriminate; cbn in N.
  - injection N as <- <-. apply andb_prop in H as [H _]. apply andb_prop in H as [H1 H2]. apply Nat.eqb_eq in H1 as ->. cbn. eauto.
  - apply andb_prop in H as [_ H]. exact (IH b H j n0 s0 N).
Qed.
Lemma teq_nth d i : teq S compat tab d i = true -> (forall s, compat s s = true) -> forall j n s, nth_error (meths d) j = Some (n, s) -> exists s', nth_error (meths i) j = Some (n, s') /\ compat s s' = true.
Proof.
  intros H R. destruct d as [x|l], i as [y|l']; cbn [teq] in H; try exact (sameFields_nth _ _ H). apply Nat.eqb_eq in H as ->. intros j n s N. exists s. auto.
Qed.
(** Without reflexivity only the names agree. *)
Lemma teq_names d i : teq S compat tab d i = true -> forall j n s, nth_error (meths d) j = Some (n, s) -> exists s', nth_error (meths i) j = Some (n, s').
Proof.
  intros H. destruct d as [x|l], i as [y|l']; cbn [teq] in H; try (intros j n s N; destruct (sameFields_nth _ _ H j n s N) as (s' & E & _); eauto; fail). apply Nat.eqb_eq in H as ->. eauto.
Qed.

(** * Declarations *)
Lemma addField_spec l n s : addField S l n s = if existsb (Nat.eqb n) (map fst l) then Err EOther else Ok (l ++ [(n, s)]).
Proof.
  unfold addField. destruct (existsb (Nat.eqb n) (map fst l)) eqn:E.
  - destruct (findField l n) eqn:F; [reflexivity|]. apply findField_none in F. exfalso. apply F. apply existsb_exists in E as (x & I & E). apply Nat.eqb_eq in E. now subst.
  - destruct (findField l n) as [[k r]|] eqn:F; [|reflexivity]. apply findField_nth, nth_error_In, (in_map fst) in F. cbn in F.
    assert (existsb (Nat.eqb n) (map fst l) = true) by (apply existsb_exists; exists n; rewrite Nat.eqb_refl; auto). congruence.
Qed.
Lemma NoDup_snoc {X} (l : list X) x : NoDup l -> ~ In x l -> NoDup (l ++ [x]).
Proof. intros N I. apply NoDup_rev in N. rewrite <- (rev_involutive (l ++ [x])), rev_app_distr. apply NoDup_rev. cbn. constructor; [|exact N]. now rewrite <- in_rev. Qed.
Lemma addFields_spec r : forall l, NoDup (map fst l) ->
  (NoDup (map fst (l ++ r)) /\ addFields S l r = Ok (l ++ r)) \/ (~ NoDup (map fst (l ++ r)) /\ addFields S l r = Err EOther).
Proof.
  induction r as [|[n s] r IH]; intros l N; cbn [addFields]; [rewrite app_nil_r; auto|]. rewrite addField_spec. destruct (existsb (Nat.eqb n) (map fst l)) eqn:E.
  - right. split; [|reflexivity]. apply existsb_exists in E as (x & I & E). apply Nat.eqb_eq in E as <-. rewrite map_app. cbn. intros H. apply NoDup_remove_2 in H. apply H, in_or_app. auto.
  - cbn [bind]. assert (~ In n (map fst l)) as I. { intros I. assert (existsb (Nat.eqb n) (map fst l) = true) by (apply existsb_exists; exists n; rewrite Nat.eqb_refl; auto). congruence. }
    specialize (IH (l ++ [(n, s)])). rewrite map_app in IH. specialize (IH (NoDup_snoc _ _ N I)). rewrite <- app_assoc in IH. exact IH.
Qed.
Definition flatten (its : list (item S)) : list (nat * S) := flat_map (fun it => match it with IMethod _ n s => [(n, s)] | IEmbed _ i => meths i end) its.
Lemma NoDup_app_l {X} (a b : list X) : NoDup (a ++ b) -> NoDup a.
Proof. induction a; cbn; intros H; [constructor|]. inversion H; subst. constructor; auto. intros I. apply H2, in_or_app. auto. Qed.
Lemma parse_spec its : forall l, NoDup (map fst l) ->
  (NoDup (map fst (l ++ flatten its)) /\ parseInterface S tab l its = Ok (l ++ flatten its)) \/ (~ NoDup (map fst (l ++ flatten its)) /\ parseInterface S tab l its = Err EOther).
Proof.
  induction its as [|[n s|i] its IH]; intros l N; cbn [parseInterface flatten flat_map]; [rewrite app_nil_r; auto|fold (flatten its)|fold (flatten its)].
  - pose proof (addFields_spec [(n, s)] l N) as A. cbn [addFields] in A. destruct (addField S l n s) as [l'|e|]; cbn [bind] in *; destruct A as [[A1 A2]|[A1 A2]]; try discriminate.
    + injection A2 as ->. specialize (IH _ A1). rewrite <- app_assoc in IH. exact IH.
    + injection A2 as ->. right. split; [|reflexivity]. intros H. apply A1. rewrite app_assoc, map_app in H. exact (NoDup_app_l _ _ H).
  - destruct (addFields_spec (meths i) l N) as [[A1 A2]|[A1 A2]]; rewrite A2; cbn [bind].
    + specialize (IH _ A1). rewrite <- app_assoc in IH. exact IH.
    + right. split; [|reflexivity]. intros H. apply A1. rewrite app_assoc, map_app in H. exact (NoDup_app_l _ _ H).
Qed.

(** * Conversions *)
Lemma exec_app a b s : exec (a ++ b) s = let* s := exec a s in exec b s.
Proof. revert s. induction a as [|i a IH]; intros s; [reflexivity|]. cbn [app IfaceModel.exec]. destruct (step T equiv eff i s) as [s'| |]; cbn [bind]; auto. Qed.
Definition below (n : nat) (a b : nat -> val) : Prop := forall x, (x < n)%nat -> a x = b x.
Definition at_ (s : state) (v : val) (j : nat) : option val := match v with VVar _ k => Some (vars T s (k + j)%nat) | VTmp _ k => Some (tmps T s (k + j)%nat) | _ => None end.
Definition inside (v : val) (w next : nat) : Prop := match v with VVar _ _ => True | VTmp _ k => (k + w <= next)%nat | _ => False end.

Lemma convPtrMeths_ok t l : forall k c s, convPtrMeths T S find isNull compat t k l = Ok c ->
  exists tm, exec c s = Ok (St T (stk T s) (vars T s) tm (self T s) (result T s) (log T s)) /\ below k tm (tmps T s)
    /\ forall j n sg, nth_error l j = Some (n, sg) -> tm (k + j)%nat = VInt T (entry (VType T t) n).
Proof.
  induction l as [|[n sg] l IH]; intros k c s; cbn [convPtrMeths].
  - intros [= <-]. exists (tmps T s). split; [destruct s; reflexivity|]. split; [intros x _; reflexivity|]. intros [|j]; discriminate.
  - assert (E0 : (if isNull t then Ok 0 else match find t n with None => Err EOther | Some (e, s') => if compat sg s' then Ok e else Err EOther end) <> Ok 0 -> True) by auto. clear E0.
    destruct (if isNull t then Ok 0 else match find t n with None => Err EOther | Some (e, s') => if compat sg s' then Ok e else Err EOther end) as [e|x|] eqn:E; cbn [bind]; try discriminate.
    assert (EE : e = entry (VType T t) n).
    { unfold IfaceSpec.entry. destruct (isNull t); [now injection E|]. destruct (find t n) as [[e' s']|]; [|discriminate]. destruct (compat sg s'); [now injection E|discriminate]. }
    destruct (convPtrMeths T S find isNull compat t (k + 1) l) as [c'|x|] eqn:C; cbn [bind]; try discriminate. intros [= <-].
    cbn [app IfaceModel.exec step stk push bind vars tmps self result log].
    destruct (IH _ _ (St T (stk T s) (vars T s) (upd T (tmps T s) k (VInt T e)) (self T s) (result T s) (log T s)) C) as (tm & X & B & W). cbn [stk vars tmps self result log] in *.
    exists tm. split; [exact X|]. split.
    + intros x L. rewrite B by lia. unfold upd. destruct (Nat.eqb_spec x k); [lia|reflexivity].
    + intros [|j] n0 s0 N; cbn in N.
      * injection N as <- <-. rewrite Nat.add_0_r, B by lia. unfold upd. rewrite Nat.eqb_refl. now rewrite EE.
      * rewrite <- (W j n0 s0 N). f_equal. lia.
Qed.

Lemma convPtr_ok t d off c p s r : convPtr T S find isNull compat tab t d off = Ok c -> stk T s = p :: r ->
  exists tm, exec c s = Ok (St T (VTmp T off :: r) (vars T s) tm (self T s) (result T s) (log T s)) /\ below off tm (tmps T s)
    /\ tm off = p /\ tm (off + 1)%nat = VType T t /\ forall j n sg, nth_error (meths d) j = Some (n, sg) -> tm (off + (2 + j))%nat = VInt T (entry (VType T t) n).
Proof.
  unfold convPtr. intros H St. destruct (convPtrMeths T S find isNull compat t (off + 2) (meths d)) as [c'|x|] eqn:C; cbn [bind] in H; try discriminate. injection H as <-.
  cbn [app IfaceModel.exec step stk push bind vars tmps self result log]. rewrite St. cbn [app IfaceModel.exec step stk push bind vars tmps self result log].
  rewrite exec_app.
  destruct (convPtrMeths_ok t _ _ _ (IfaceModel.St T r (vars T s) (upd T (upd T (tmps T s) off p) (off + 1) (VType T t)) (self T s) (result T s) (log T s)) C) as (tm & X & B & W). cbn [stk vars tmps self result log] in *.
  rewrite X. cbn [bind IfaceModel.exec step stk push vars tmps self result log]. exists tm. split; [reflexivity|].
  assert (U : forall x, upd T (upd T (tmps T s) off p) (off + 1) (VType T t) x = if (x =? off + 1)%nat then VType T t else if (x =? off)%nat then p else tmps T s x) by reflexivity.
  split; [|split; [|split]].
  - intros x L. rewrite B, U by lia. destruct (Nat.eqb_spec x (off + 1)); [lia|]. destruct (Nat.eqb_spec x off); [lia|reflexivity].
  - rewrite B, U by lia. destruct (Nat.eqb_spec off (off + 1)); [lia|]. now rewrite Nat.eqb_refl.
  - rewrite B, U by lia. now rewrite Nat.eqb_refl.
  - intros j n sg N. rewrite <- (W j n sg N). f_equal. lia.
Qed.

Lemma load_field k v s r x : at_ s v k = Some x -> exists v', step T equiv eff (IField T k) (push T s v r) = Ok (push T s v' r) /\ load T s v' = Ok x.
Proof. intros A. destruct v as [z|p|t|j|j]; try discriminate; cbn in *; injection A as <-; eexists; split; reflexivity. Qed.
Lemma deref_ok s v r x : load T s v = Ok x -> step T equiv eff (IDeref T) (push T s v r) = Ok (push T s x r).
Proof. intros H. unfold step, push at 1. cbn [stk]. replace (load T (push T s v r) v) with (load T s v) by (destruct v; reflexivity). rewrite H. reflexivity. Qed.
Lemma load0 v s x : at_ s v 0 = Some x -> load T s v = Ok x.
Proof. destruct v; cbn; try discriminate; rewrite Nat.add_0_r; now intros [= <-]. Qed.
Lemma at_below (s s' : state) v w j next : inside v w next -> (j < w)%nat -> vars T s' = vars T s -> below next (tmps T s') (tmps T s) -> at_ s' v j = at_ s v j.
Proof. intros I L V B. destruct v; cbn in *; try tauto; [now rewrite V|]. rewrite B by lia. reflexivity. Qed.

Lemma convIfaceMeths_ok src l : forall k c s v r next ty,
  convIfaceMeths T S compat src k l = Ok c -> stk T s = v :: r -> inside v (2 + length src) next -> (next <= k)%nat ->
  (forall j n sg, nth_error src j = Some (n, sg) -> at_ s v (2 + j) = Some (VInt T (entry ty n))) ->
  exists tm, exec c s = Ok (St T (v :: r) (vars T s) tm (self T s) (result T s) (log T s)) /\ below k tm (tmps T s)
    /\ forall j n sg, nth_error l j = Some (n, sg) -> tm (k + j)%nat = VInt T (entry ty n).
Proof.
  induction l as [|[n sg] l IH]; intros k c s v r next ty; cbn [convIfaceMeths].
  - intros [= <-] St _ _ _. exists (tmps T s). split; [destruct s; cbn in *; subst; reflexivity|]. split; [intros x _; reflexivity|]. intros [|j]; discriminate.
  - destruct (findField src n) as [[j s']|] eqn:F; [|discriminate]. destruct (compat sg s'); [|discriminate].
    destruct (convIfaceMeths T S compat src (k + 1) l) as [c'|x|] eqn:C; cbn [bind]; try discriminate. intros [= <-] St I L M.
    apply findField_nth in F. pose proof (M _ _ _ F) as A. destruct (load_field (2 + j) v s (v :: r) _ A) as (v' & E1 & E2).
    change ([IDup T; IField T (2 + j); IDeref T; ITmp T k; ISwapAssign T] ++ c') with (IDup T :: IField T (2 + j) :: IDeref T :: ITmp T k :: ISwapAssign T :: c').
    assert (E0 : step T equiv eff (IDup T) s = Ok (push T s v (v :: r))) by (unfold step; rewrite St; reflexivity).
    cbn [IfaceModel.exec]. rewrite E0. cbn [bind]. change (Datatypes.S (Datatypes.S j)) with (2 + j)%nat. rewrite E1. cbn [bind].
    assert (E3 : step T equiv eff (IDeref T) (push T s v' (v :: r)) = Ok (push T s (VInt T (entry ty n)) (v :: r))).
    { exact (deref_ok s v' (v :: r) _ E2). }
    rewrite E3. cbn [bind step push stk vars tmps self result log].
    set (s1 := IfaceModel.St T (v :: r) (vars T s) (upd T (tmps T s) k (VInt T (entry ty n))) (self T s) (result T s) (log T s)).
    assert (Bk : below k (tmps T s1) (tmps T s)). { intros x Lx. cbn. unfold upd. destruct (Nat.eqb_spec x k); [lia|reflexivity]. }
    destruct (IH _ _ s1 v r next ty C eq_refl I ltac:(lia)) as (tm & X & B & W).
    { intros j0 n0 sg0 N. rewrite <- (M _ _ _ N). apply (at_below s s1 v (2 + length src) _ next); [exact I| |reflexivity|].
      - assert (j0 < length src)%nat by (apply nth_error_Some; congruence). lia.
      - intros x Lx. apply Bk. lia. }
    exists tm. split; [exact X|]. split.
    + intros x Lx. rewrite B by lia. apply Bk. lia.
    + intros [|j0] n0 s0 N; cbn in N.
      * injection N as <- <-. rewrite Nat.add_0_r, B by lia. cbn. unfold upd. now rewrite Nat.eqb_refl.
      * rewrite <- (W j0 n0 s0 N). f_equal. lia.
Qed.

(** A value on the stack that is an interface of type [i] with pointer [p] of type [ty]. *)
Definition isIface (s : state) (v : val) (i : iface) (p ty : val) : Prop :=
  at_ s v 0 = Some p /\ at_ s v 1 = Some ty /\ forall j n sg, nth_error (meths i) j = Some (n, sg) -> at_ s v (2 + j) = Some (VInt T (entry ty n)).

Lemma convIface_ok i d off c s v r p ty : convIface T S compat tab i d off = Ok c -> stk T s = v :: r -> inside v (width i) off -> isIface s v i p ty ->
  exists tm, exec c s = Ok (St T (VTmp T off :: r) (vars T s) tm (self T s) (result T s) (log T s)) /\ below off tm (tmps T s)
    /\ tm off = p /\ tm (off + 1)%nat = ty /\ forall j n sg, nth_error (meths d) j = Some (n, sg) -> tm (off + (2 + j))%nat = VInt T (entry ty n).
Proof.
  unfold convIface. intros H St I (A0 & A1 & A2). destruct (convIfaceMeths T S compat (meths i) (off + 2) (meths d)) as [c'|x|] eqn:C; cbn [bind] in H; try discriminate.
  assert (c = [IDup T; IDeref T; ITmp T off; ISwapAssign T] ++ [IDup T; IField T 1; IDeref T; ITmp T (off + 1); ISwapAssign T] ++ c' ++ [IPop T; ITmp T off]) as -> by (injection H as <-; reflexivity). clear H.
  set (s1 := IfaceModel.St T (v :: r) (vars T s) (upd T (tmps T s) off p) (self T s) (result T s) (log T s)).
  assert (X1 : exec [IDup T; IDeref T; ITmp T off; ISwapAssign T] s = Ok s1).
  { assert (E0 : step T equiv eff (IDup T) s = Ok (push T s v (v :: r))) by (unfold step; rewrite St; reflexivity).
    cbn [IfaceModel.exec]. rewrite E0. cbn [bind]. rewrite (deref_ok s v (v :: r) p (load0 _ _ _ A0)). reflexivity. }
  assert (B1 : below off (tmps T s1) (tmps T s)). { intros x Lx. cbn. unfold upd. destruct (Nat.eqb_spec x off); [lia|reflexivity]. }
  assert (A1' : at_ s1 v 1 = Some ty). { rewrite <- A1. apply (at_below s s1 v (width i) 1 off); auto. unfold IfaceModel.width. lia. }
  set (s2 := IfaceModel.St T (v :: r) (vars T s) (upd T (tmps T s1) (off + 1) ty) (self T s) (result T s) (log T s)).
  assert (X2 : exec [IDup T; IField T 1; IDeref T; ITmp T (off + 1); ISwapAssign T] s1 = Ok s2).
  { destruct (load_field 1 v s1 (v :: r) _ A1') as (v' & E1 & E2). cbn [IfaceModel.exec]. change (step T equiv eff (IDup T) s1) with (Ok (push T s1 v (v :: r))). cbn [bind]. rewrite E1. cbn [bind]. rewrite (deref_ok s1 v' (v :: r) _ E2). reflexivity. }
  assert (B2 : below off (tmps T s2) (tmps T s)). { intros x Lx. cbn. unfold upd at 1. destruct (Nat.eqb_spec x (off + 1)); [lia|]. now apply B1. }
  rewrite exec_app, X1. cbn [bind]. rewrite exec_app, X2. cbn [bind]. rewrite exec_app.
  destruct (convIfaceMeths_ok _ _ _ _ s2 v r off ty C eq_refl I ltac:(lia)) as (tm & X & B & W).
  { intros j n sg N. rewrite <- (A2 _ _ _ N). apply (at_below s s2 v (width i) _ off); auto. assert (j < length (meths i))%nat by (apply nth_error_Some; congruence). unfold IfaceModel.width. lia. }
  rewrite X. cbn [bind IfaceModel.exec step stk push vars tmps self result log]. exists tm. split; [reflexivity|]. split; [|split; [|split]].
  - intros x Lx. rewrite B by lia. now apply B2.
  - rewrite B by lia. cbn. unfold upd. destruct (Nat.eqb_spec off (off + 1)); [lia|]. now rewrite Nat.eqb_refl.
  - rewrite B by lia. cbn. unfold upd. now rewrite Nat.eqb_refl.
  - intros j n sg N. rewrite <- (W j n sg N). f_equal. lia.
Qed.

Lemma source_ok decl s0 : forall next c next' st, genSource s0 next = Ok (c, next') -> (forall x, In x (sourceVars T S s0) -> In x decl) -> good decl (vars T st) ->
  exists v tm, exec c st = Ok (St T (v :: stk T st) (vars T st) tm (self T st) (result T st) (log T st)) /\ (next <= next')%nat /\ below next tm (tmps T st) /\
    match staticType s0 with
    | TyPtr _ _ t => content (vars T st) s0 = (v, VType T t)
    | TyI _ _ i => inside v (width i) next' /\ let st' := St T (v :: stk T st) (vars T st) tm (self T st) (result T st) (log T st) in
        isIface st' v i (fst (content (vars T st) s0)) (snd (content (vars T st) s0))
    end.
Proof.
  induction s0 as [p t|k i|d s0 IH]; intros next c next' st G D Gd; cbn [IfaceModel.genSource] in G.
  - injection G as <- <-. exists p, (tmps T st). cbn. split; [reflexivity|]. split; [lia|]. split; [intros x _; reflexivity|reflexivity].
  - injection G as <- <-. exists (VVar T k), (tmps T st). cbn. split; [reflexivity|]. split; [lia|]. split; [intros x _; reflexivity|]. split; [exact I|].
    split; [cbn; now rewrite Nat.add_0_r|]. split; [reflexivity|]. intros j n sg N. cbn. f_equal. exact (Gd k i (D _ (or_introl eq_refl)) j n sg N).
  - destruct (genSource s0 next) as [[c1 n1]|x|] eqn:G1; cbn [bind] in G; try discriminate.
    destruct (IH _ _ _ st G1 D Gd) as (v & tm & X & Ln & B & H). cbn [IfaceModel.staticType IfaceSpec.content]. destruct (staticType s0) as [t|i].
    + destruct (convPtr T S find isNull compat tab t d n1) as [c2|x|] eqn:C; cbn [bind] in G; try discriminate. injection G as <- <-.
      destruct (convPtr_ok _ _ _ _ v (St T (v :: stk T st) (vars T st) tm (self T st) (result T st) (log T st)) (stk T st) C eq_refl) as (tm2 & X2 & B2 & P1 & P2 & P3). cbn [vars tmps self result log] in *.
      exists (VTmp T n1), tm2. rewrite exec_app, X. cbn [bind]. split; [exact X2|]. split; [unfold IfaceModel.width; lia|]. split; [intros x Lx; rewrite B2 by lia; now apply B|].
      split; [cbn [inside]; lia|]. rewrite H. cbn [fst snd]. split; [cbn; now rewrite Nat.add_0_r, P1|]. split; [cbn; now rewrite P2|]. intros j n sg N. cbn [at_ tmps]. now rewrite (P3 j n sg N).
    + destruct H as [In1 H]. destruct (teq S compat tab d i) eqn:E.
      * injection G as <- <-. exists v, tm. split; [exact X|]. split; [exact Ln|]. split; [exact B|].
        destruct H as (H0 & H1 & H2). assert (LE : (length (meths d) <= length (meths i))%nat).
        { destruct (Nat.le_gt_cases (length (meths d)) (length (meths i))) as [|Gt]; [assumption|]. destruct (nth_error (meths d) (length (meths i))) as [[n sg]|] eqn:N.
          - destruct (teq_names _ _ E _ _ _ N) as (s' & N'). assert (length (meths i) < length (meths i))%nat by (apply nth_error_Some; congruence). lia.
          - apply nth_error_None in N. lia. }
        split; [unfold IfaceModel.width in *; destruct v; cbn [inside] in *; auto; lia|]. split; [exact H0|]. split; [exact H1|]. intros j n sg N. destruct (teq_names _ _ E _ _ _ N) as (s' & N'). exact (H2 j n s' N').
      * destruct (convIface T S compat tab i d n1) as [c2|x|] eqn:C; cbn [bind] in G; try discriminate. injection G as <- <-.
        destruct (convIface_ok i d n1 c2 (St T (v :: stk T st) (vars T st) tm (self T st) (result T st) (log T st)) v (stk T st) _ _ C eq_refl In1 H) as (tm2 & X2 & B2 & P1 & P2 & P3). cbn [vars tmps self result log] in *.
        exists (VTmp T n1), tm2. rewrite exec_app, X. cbn [bind]. split; [exact X2|]. split; [unfold IfaceModel.width; lia|]. split; [intros x Lx; rewrite B2 by lia; now apply B|].
        split; [cbn [inside]; lia|]. split; [cbn; now rewrite Nat.add_0_r, P1|]. split; [cbn; now rewrite P2|]. intros j n sg N. cbn [at_ tmps]. now rewrite (P3 j n sg N).
Qed.

(** * Calls *)
Notation genExpr := (genExpr T S find isNull compat tab).
Notation genArgs := (genArgs T S find isNull compat tab).
Notation sem := (sem T S find isNull eff).
Notation semArgs := (semArgs T S find isNull eff).
Variable decl : list (nat * iface).
Hypothesis KEEP : forall e ps vs, good decl vs -> good decl (fst (fst (eff e ps vs))).

Lemma sem_call s n args vs : sem (ECall T S s n args) vs = let (p, ty) := content vs s in let e := entry ty n in let* r := semArgs args vs in
  let '(l, vs, ps) := r in if e =? 0 then Err EIllegalFn else let '(vs, _, v) := eff e (p :: ps) vs in Ok (l ++ [(e, p :: ps)], vs, v).
Proof. reflexivity. Qed.
Lemma sem_cons e a vs : semArgs (ECons T S e a) vs = let* r := sem e vs in let '(l, vs, v) := r in let* r' := semArgs a vs in let '(l', vs, ps) := r' in Ok (l ++ l', vs, v :: ps).
Proof. reflexivity. Qed.
Lemma gen_call s n args next : genExpr (ECall T S s n args) next = let* (c, next) := genSource s next in
  match staticType s with
  | TyPtr _ _ _ => Err EOther
  | TyI _ _ i =>
      match findField (meths i) n with
      | None => Err EOther
      | Some (j, _) =>
          let* (ca, next) := genArgs args next in
          Ok (c ++ [IDup T; IDeref T; IPopSelf T; IField T (2 + j); IDeref T; IPushSelf T] ++ ca ++ [ICall T (1 + count T S args); IPop T; IPushResult T], next)
      end
  end.
Proof. reflexivity. Qed.
Lemma gen_cons e a next : genArgs (ECons T S e a) next = let* (c, next) := genExpr e next in let* (c', next) := genArgs a next in Ok (c ++ c', next).
Proof. reflexivity. Qed.
Lemma semArgs_len a : forall vs l vs' ps, semArgs a vs = Ok (l, vs', ps) -> length ps = count T S a.
Proof.
  induction a as [|e a IH]; intros vs l vs' ps; [cbn; now intros [= <- <- <-]|]. rewrite sem_cons. cbn [count].
  destruct (sem e vs) as [[[l1 vs1] v]| |]; cbn [bind]; try discriminate. destruct (semArgs a vs1) as [[[l2 vs2] ps2]| |] eqn:E; cbn [bind]; try discriminate. intros [= <- <- <-]. cbn [length]. now rewrite (IH _ _ _ _ E).
Qed.
Lemma expr_ok :
  (forall e next c next' st, genExpr e next = Ok (c, next') -> (forall x, In x (exprVars T S e) -> In x decl) -> good decl (vars T st) ->
    match sem e (vars T st) with
    | Ok (l, vs, v) => good decl vs /\ exists tm se re, exec c st = Ok (St T (v :: stk T st) vs tm se re (log T st ++ l))
    | Err x => exec c st = Err x
    | UB => False
    end) /\
  (forall a next c next' st, genArgs a next = Ok (c, next') -> (forall x, In x (argVars T S a) -> In x decl) -> good decl (vars T st) ->
    match semArgs a (vars T st) with
    | Ok (l, vs, ps) => good decl vs /\ exists tm se re, exec c st = Ok (St T (rev ps ++ stk T st) vs tm se re (log T st ++ l))
    | Err x => exec c st = Err x
    | UB => False
    end).
Proof.
  apply expr_mut.
  - intros z next c next' st [= <- <-] _ Gd. cbn. split; [exact Gd|]. do 3 eexists. now rewrite app_nil_r.
  - intros s n args IHa next c next' st G D Gd. rewrite gen_call in G.
    destruct (genSource s next) as [[c1 n1]|x|] eqn:G1; cbn [bind] in G; try discriminate.
    destruct (source_ok decl s next c1 n1 st G1 ltac:(intros x I; apply D; cbn; apply in_or_app; auto) Gd) as (v & tm & X & _ & _ & H).
    destruct (staticType s) as [t|i]; [discriminate|]. destruct (findField (meths i) n) as [[j s']|] eqn:F; [|discriminate].
    destruct (genArgs args n1) as [[ca n2]|x|] eqn:G2; cbn [bind] in G; try discriminate. assert (c = c1 ++ [IDup T; IDeref T; IPopSelf T; IField T (2 + j); IDeref T; IPushSelf T] ++ ca ++ [ICall T (1 + count T S args); IPop T; IPushResult T]) as -> by congruence. clear G.
    destruct H as (Ins & H0 & H1 & H2). apply findField_nth in F. specialize (H2 _ _ _ F). rewrite sem_call.
    destruct (content (vars T st) s) as [p ty]. cbn [fst snd] in *.
    set (st1 := St T (v :: stk T st) (vars T st) tm (self T st) (result T st) (log T st)) in *.
    set (st2 := St T (p :: VInt T (entry ty n) :: stk T st) (vars T st) tm p (result T st) (log T st)).
    assert (X2 : exec [IDup T; IDeref T; IPopSelf T; IField T (2 + j); IDeref T; IPushSelf T] st1 = Ok st2).
    { destruct v as [z|q|t|k|k]; try (destruct Ins; fail); cbn in H0, H2 |- *; rewrite Nat.add_0_r in H0; injection H0 as H0; injection H2 as H2; rewrite H0, H2; reflexivity. }
    rewrite exec_app, X. cbn [bind]. rewrite exec_app. fold st1. rewrite X2. cbn [bind]. rewrite exec_app.
    specialize (IHa n1 ca n2 st2 G2 ltac:(intros x I; apply D; cbn; apply in_or_app; auto) Gd). cbn [vars st2] in IHa.
    destruct (semArgs args (vars T st)) as [[[l vs] ps]|x|] eqn:SA; cbn [bind]; [|rewrite IHa; reflexivity|exact IHa].
    destruct IHa as (Gd2 & tm2 & se & re & X3). fold st2 in X3. rewrite X3. cbn [bind stk st2 log].
    assert (Ln : length ps = count T S args) by exact (semArgs_len _ _ _ _ _ SA).
    cbn [IfaceModel.exec step stk]. set (r := VInt T (entry ty n) :: stk T st).
    assert (Q : rev ps ++ p :: r = rev (p :: ps) ++ r) by (cbn [rev]; now rewrite <- app_assoc). rewrite Q.
    assert (Lr : length (rev (p :: ps)) = (1 + count T S args)%nat) by (rewrite rev_length; cbn [length]; lia).
    rewrite nth_error_app2 by lia. rewrite Lr, Nat.sub_diag. cbn [nth_error r].
    destruct (entry ty n =? 0) eqn:E0; [reflexivity|].
    rewrite <- Lr, firstn_app, Nat.sub_diag, firstn_O, app_nil_r, firstn_all, rev_involutive, skipn_app, skipn_all, Nat.sub_diag. cbn [vars skipn app].
    pose proof (KEEP (entry ty n) (p :: ps) vs Gd2) as K. destruct (eff (entry ty n) (p :: ps) vs) as [[vs' x] w] eqn:Ef. cbn [fst] in K. split; [exact K|].
    cbn [bind step stk r push vars tmps self result log IfaceModel.exec]. do 3 eexists. now rewrite app_assoc.
  - intros next c next' st [= <- <-] _ Gd. cbn. split; [exact Gd|]. exists (tmps T st), (self T st), (result T st). rewrite app_nil_r. destruct st; reflexivity.
  - intros e IHe a IHa next c next' st G D Gd. rewrite gen_cons in G.
    destruct (genExpr e next) as [[c1 n1]|x|] eqn:G1; cbn [bind] in G; try discriminate. destruct (genArgs a n1) as [[c2 n2]|x|] eqn:G2; cbn [bind] in G; try discriminate. injection G as <- <-.
    specialize (IHe _ _ _ st G1 ltac:(intros x I; apply D; cbn; apply in_or_app; auto) Gd). rewrite sem_cons, exec_app.
    destruct (sem e (vars T st)) as [[[l vs] v]|x|]; cbn [bind]; [|rewrite IHe; reflexivity|exact IHe]. destruct IHe as (Gd2 & tm & se & re & X). rewrite X. cbn [bind].
    specialize (IHa _ _ _ (St T (v :: stk T st) vs tm se re (log T st ++ l)) G2 ltac:(intros x I; apply D; cbn; apply in_or_app; auto) Gd2). cbn [vars stk log] in IHa.
    destruct (semArgs a vs) as [[[l' vs'] ps]|x|]; cbn [bind]; [|exact IHa|exact IHa]. destruct IHa as (Gd3 & tm3 & se3 & re3 & X3). split; [exact Gd3|]. do 3 eexists. rewrite X3. cbn [rev]. rewrite <- !app_assoc. reflexivity.
Qed.
End Proofs.

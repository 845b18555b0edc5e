(** Proofs about identifiers. *)
From Coq Require Import ZArith Lia Bool ZifyBool List String.
From Verif Require Import Base IdModel IdSpec.
Import ListNotations.
Local Open Scope Z_scope.

(** ** Abstraction *)

Definition absd (n : string) (i : ident) : decl :=
  {| dk := ik i; dnm := n; dty := ityp i; dmod := imod i; dexp := iexp i;
     dopen := match ityp i with TFwd _ => true | TFn _ _ => iproto i | _ => false end; did := iid i; dval := ival i |}.
Fixpoint absU (l : list ident) : list decl :=
  match l with
  | [] => []
  | i :: r => match inm i with NUser n => absd n i :: absU r | NTemp _ => absU r end
  end.

Definition topb (its : list (Z * bool)) : Z := match its with (b, _) :: _ => b | [] => -1 end.

Inductive RS : list (Z * bool) -> list ident -> list (bool * list decl) -> Prop :=
| RS_bot : forall fn g, Forall (fun i => iblk i = 0) g -> RS [(0, fn)] g [(fn, absU g)]
| RS_push : forall b fn g its l sc, Forall (fun i => iblk i = b) g -> topb its < b -> RS its l sc ->
    RS ((b, fn) :: its) (g ++ l) ((fn, absU g) :: sc).

Definition idOk (t n : Z) (i : ident) : Prop :=
  match inm i with
  | NUser _ => 0 <= iid i < n
  | NTemp k => 0 <= k < t /\ iid i = - (k + 1) /\ isFwd (ityp i) = false
  end.

Definition RM (ms : list module) (ps : list string) (dn : list Z) (im : list (Z * string * Z)) : Prop :=
  ps = map mpath ms /\
  (forall m al j, In (m, al, j) im <-> exists x, 0 <= m /\ nth_error ms (Z.to_nat m) = Some x /\ In (j, al) (maliases x)) /\
  (forall m, In m dn <-> exists x, 0 <= m /\ nth_error ms (Z.to_nat m) = Some x /\ mcompiled x = true).

Record R (s : st) (a : ast) : Prop := {
  r_rs : RS (items s) (idents s) (scopes a);
  r_nb : topb (items s) < numBlocks s;
  r_ids : Forall (idOk (temps s) (nid s)) (idents s);
  r_nodup : NoDup (map iid (idents s));
  r_nid : anid a = nid s;
  r_cur : acur a = cur s;
  r_pos : 0 <= nid s /\ 0 <= temps s;
  r_mods : RM (mods s) (paths a) (done a) (imps a);
  r_curok : 0 <= cur s < Z.of_nat (List.length (mods s))
}.

(** ** Lists *)

Lemma absU_app : forall l1 l2, absU (l1 ++ l2) = absU l1 ++ absU l2.
Proof.
  induction l1 as [|i r IH]; intros l2; cbn [absU app]; [reflexivity|].
  destruct (inm i); rewrite IH; reflexivity.
Qed.

Lemma RS_len : forall its l sc, RS its l sc -> List.length its = List.length sc.
Proof. induction 1; cbn [List.length]; lia. Qed.
Lemma RS_top : forall its l sc, RS its l sc -> 0 <= topb its.
Proof. induction 1; cbn [topb]; lia. Qed.
Lemma RS_below : forall its l sc, RS its l sc -> Forall (fun i => 0 <= iblk i <= topb its) l.
Proof.
  induction 1 as [fn g F|b fn g its l sc F T S IH].
  - eapply Forall_impl; [|exact F]. cbn. intros. lia.
  - apply Forall_app. split.
    + eapply Forall_impl; [|exact F]. intros i E. cbv beta in E. cbn [topb]. pose proof (RS_top _ _ _ S). lia.
    + eapply Forall_impl; [|exact IH]. intros i E. cbv beta in *. cbn [topb]. lia.
Qed.
Lemma RS_items : forall its l sc, RS its l sc -> Forall (fun x => 0 <= fst x <= topb its) its.
Proof.
  induction 1 as [fn g F|b fn g its l sc F T S IH].
  - constructor; [cbn; lia|constructor].
  - pose proof (RS_top _ _ _ S). constructor; [cbn [topb fst]; lia|].
    eapply Forall_impl; [|exact IH]. intros x E. cbv beta in *. cbn [topb]. lia.
Qed.
Lemma RS_fn : forall its l sc, RS its l sc -> map fst sc = map snd its.
Proof. induction 1; cbn [map fst snd]; congruence. Qed.

Lemma find_ext : forall {A} (f g : A -> bool) l, (forall x, In x l -> f x = g x) -> List.find f l = List.find g l.
Proof.
  induction l as [|x r IH]; intros E; cbn [List.find]; [reflexivity|].
  rewrite (E x (or_introl eq_refl)). destruct (g x); [reflexivity|]. apply IH. intros y I. apply E. right; exact I.
Qed.
Lemma find_app : forall {A} (f : A -> bool) l1 l2,
  List.find f (l1 ++ l2) = match List.find f l1 with Some x => Some x | None => List.find f l2 end.
Proof. induction l1 as [|x r IH]; intros l2; cbn [app List.find]; [reflexivity|]. destruct (f x); [reflexivity|apply IH]. Qed.

(** ** Lookup *)

Section FIND.
  Variables (P : ident -> bool) (Q : decl -> bool).
  Hypothesis PQ : forall i n, inm i = NUser n -> P i = Q (absd n i).
  Hypothesis PT : forall i n, inm i = NTemp n -> P i = false.

  Lemma find_abs : forall g,
    match List.find P g with
    | Some i => exists n, inm i = NUser n /\ List.find Q (absU g) = Some (absd n i)
    | None => List.find Q (absU g) = None
    end.
  Proof.
    induction g as [|i r IH]; cbn [List.find absU]; [reflexivity|].
    destruct (inm i) as [n|n] eqn:N.
    - cbn [List.find]. rewrite (PQ i n N). destruct (Q (absd n i)); [exists n; auto|exact IH].
    - rewrite (PT i n N). exact IH.
  Qed.
End FIND.

Fixpoint lookIn (Q : decl -> bool) (n : nat) (l : list (bool * list decl)) : option (nat * decl) :=
  match l with
  | [] => None
  | (_, ds) :: r => match List.find Q ds with Some d => Some (n, d) | None => lookIn Q (S n) r end
  end.
Lemma lookIn_eq : forall a q l n, lookupFrom a q n l = lookIn (answersb a q) n l.
Proof. induction l as [|[f ds] r IH]; intros n; cbn [lookupFrom lookIn]; [reflexivity|]. rewrite IH. reflexivity. Qed.

Lemma find_RS : forall P Q, (forall i n, inm i = NUser n -> P i = Q (absd n i)) -> (forall i n, inm i = NTemp n -> P i = false) ->
  forall its l sc, RS its l sc -> forall k,
  match List.find P l with
  | Some i => exists n j fn, inm i = NUser n /\ lookIn Q k sc = Some ((k + j)%nat, absd n i) /\ nth_error its j = Some (iblk i, fn)
  | None => lookIn Q k sc = None
  end.
Proof.
  intros P Q PQ PT. induction 1 as [fn g F|b fn g its l sc F T S IH]; intros k.
  - pose proof (find_abs P Q PQ PT g) as H. cbn [lookIn].
    destruct (List.find P g) as [i|] eqn:E.
    + destruct H as (n & N & H). rewrite H. exists n, 0%nat, fn. rewrite Nat.add_0_r.
      apply find_some in E. rewrite Forall_forall in F. rewrite (F i (proj1 E)). auto.
    + rewrite H. reflexivity.
  - rewrite find_app. pose proof (find_abs P Q PQ PT g) as H. cbn [lookIn].
    destruct (List.find P g) as [i|] eqn:E.
    + destruct H as (n & N & H). rewrite H. exists n, 0%nat, fn. rewrite Nat.add_0_r.
      apply find_some in E. rewrite Forall_forall in F. rewrite (F i (proj1 E)). auto.
    + rewrite H. specialize (IH (Datatypes.S k)). destruct (List.find P l) as [i|] eqn:E2; [|exact IH].
      destruct IH as (n & j & f & N & L & J). exists n, (Datatypes.S j), f. split; [exact N|]. split; [|exact J].
      rewrite L. do 2 f_equal. lia.
Qed.

Lemma name_eqb_user : forall s t, name_eqb (NUser s) (NUser t) = String.eqb s t.
Proof. reflexivity. Qed.

Lemma importAlias_iff : forall s a, RM (mods s) (paths a) (done a) (imps a) -> forall m j, 0 <= m ->
  (match importAlias s m j with Some _ => true | None => false end) = importedb a m j.
Proof.
  intros s a (_ & HI & _) m j M. unfold importAlias, getMod, importedb.
  replace (m <? 0) with false by lia. apply eq_true_iff_eq. rewrite existsb_exists. split.
  - destruct (nth_error (mods s) (Z.to_nat m)) as [x|] eqn:E; [|discriminate].
    destruct (List.find (fun a0 => fst a0 =? j) (maliases x)) as [[j' al]|] eqn:F; [|discriminate].
    apply find_some in F. cbn [fst] in F. destruct F as [F G]. intros _. exists (m, al, j'). split.
    + apply HI. exists x. auto.
    + cbn [fst snd]. lia.
  - intros ([[m' al] j'] & I & B). cbn [fst snd] in B. assert (m' = m /\ j' = j) as (-> & ->) by lia.
    apply HI in I. destruct I as (x & _ & E & I). rewrite E.
    destruct (List.find (fun a0 => fst a0 =? j) (maliases x)) as [y|] eqn:F; [reflexivity|].
    pose proof (find_none _ _ F _ I) as N. cbn [fst] in N. lia.
Qed.

Lemma pred_eq : forall s a q, R s a -> forall i,
  (forall n, inm i = NUser n ->
   (Bool.eqb (ikind_eqb (ik i) IModule) (qmodule q) && name_eqb (inm i) (NUser (qnm q)) && identModuleValid s (qm q) (qrcv q) i && found (qrcv q) i)
   = answersb a q (absd n i)).
Proof.
  intros s a q RR i n N. unfold answersb, identModuleValid, visibleb, found. cbn [dnm dk dty dmod dexp absd]. rewrite N, name_eqb_user.
  rewrite (r_cur _ _ RR). replace (rcv_eqb (rcvOf (ityp i)) (qrcv q)) with
    (match qrcv q with Some r => match rcvOf (ityp i) with Some q0 => q0 =? r | None => false end | None => match rcvOf (ityp i) with Some _ => false | None => true end end).
  2: { unfold rcv_eqb. destruct (qrcv q), (rcvOf (ityp i)); reflexivity. }
  assert (V : (((imod i =? 0) && (cur s =? qm q)) || ((imod i =? qm q) && ((cur s =? qm q) ||
    (iexp i && (match qrcv q with Some _ => true | None => match importAlias s (cur s) (imod i) with Some _ => true | None => false end end))))) =
    (((imod i =? 0) && (qm q =? cur s)) || ((imod i =? cur s) && (qm q =? cur s)) ||
    ((imod i =? qm q) && iexp i && match qrcv q with None => importedb a (cur s) (qm q) | Some _ => true end))).
  { destruct (imod i =? qm q) eqn:E.
    - assert (imod i = qm q) as E1 by lia. rewrite E1.
      rewrite (importAlias_iff s a (r_mods _ _ RR) (cur s) (qm q) ltac:(pose proof (r_curok _ _ RR); lia)).
      rewrite (Z.eqb_sym (cur s) (qm q)). destruct (qm q =? cur s), (qm q =? 0), (iexp i), (qrcv q); cbn; try reflexivity;
      destruct (importedb a (cur s) (qm q)); reflexivity.
    - rewrite (Z.eqb_sym (cur s) (qm q)). cbn [andb]. rewrite !orb_false_r.
      destruct (qm q =? cur s) eqn:E2; [|rewrite !andb_false_r; reflexivity].
      replace (imod i =? cur s) with false by lia. rewrite orb_false_r. reflexivity. }
  rewrite V. destruct (String.eqb n (qnm q)), (Bool.eqb (ikind_eqb (ik i) IModule) (qmodule q)); cbn [andb]; try reflexivity.
  destruct (qrcv q), (rcvOf (ityp i)); cbn [andb]; rewrite ?andb_false_r, ?andb_true_r; try reflexivity. apply andb_comm.
Qed.

Lemma look_thm : forall s a q, R s a ->
  match identFindEx s (qm q) (NUser (qnm q)) (qrcv q) (qmodule q) with
  | Some i => exists n j fn, inm i = NUser n /\ lookup a q = Some (j, absd n i) /\ nth_error (items s) j = Some (iblk i, fn)
  | None => lookup a q = None
  end.
Proof.
  intros s a q RR. unfold identFindEx, lookup. rewrite lookIn_eq.
  refine (find_RS _ (answersb a q) _ _ (items s) (idents s) (scopes a) (r_rs _ _ RR) 0%nat).
  - intros i n N. apply (pred_eq s a q RR i n N).
  - intros i n N. rewrite N. cbn [name_eqb]. rewrite andb_false_r. reflexivity.
Qed.

(** Position of an identifier's block on the stack. *)
Lemma RS_nth : forall its l sc, RS its l sc -> forall j b fn, nth_error its j = Some (b, fn) ->
  (b = topb its <-> j = 0%nat) /\ (b = 0 <-> Datatypes.S j = List.length its) /\
  (forall acc, outerLoop b acc its = acc || existsb fst (firstn j sc)).
Proof.
  induction 1 as [fn0 g F|b0 fn0 g its l sc F T S IH]; intros j b fn J.
  - destruct j as [|j]; [|destruct j; discriminate]. injection J as <- <-. cbn [topb List.length firstn existsb].
    split; [tauto|]. split; [tauto|]. intros acc. cbn [outerLoop]. destruct acc; cbn; reflexivity.
  - pose proof (RS_items _ _ _ S) as FI. pose proof (RS_top _ _ _ S) as TP. rewrite Forall_forall in FI.
    destruct j as [|j]; cbn [nth_error] in J.
    + injection J as <- <-. cbn [topb List.length firstn existsb]. split; [tauto|]. split.
      * split; [lia|]. inversion S; subst; cbn [List.length]; lia.
      * intros acc. cbn [outerLoop]. rewrite Z.eqb_refl. destruct acc; cbn [andb orb]; [reflexivity|].
        assert (N : forall acc l0, (forall x, In x l0 -> fst x <> b0) -> outerLoop b0 acc l0 = false).
        { intros acc l0. revert acc. induction l0 as [|[c f] r I2]; intros acc N; [reflexivity|]. cbn [outerLoop].
          pose proof (N (c, f) (or_introl eq_refl)) as N0. cbn [fst] in N0. replace (c =? b0) with false by lia. cbn [andb].
          apply I2. intros x X. apply N. right. exact X. }
        apply N. intros x X. specialize (FI x X). lia.
    + specialize (IH j b fn J). destruct IH as (I1 & I2 & I3).
      pose proof (FI _ (nth_error_In _ _ J)) as B. cbn [fst] in B. cbn [topb List.length].
      split; [split; intros; lia|]. split; [rewrite I2; lia|].
      intros acc. cbn [outerLoop firstn existsb fst]. replace (b0 =? b) with false by lia. cbn [andb].
      rewrite I3. apply orb_assoc || (symmetry; apply orb_assoc).
Qed.

Lemma outer_thm : forall s a i n j fn, R s a -> inm i = NUser n -> nth_error (items s) j = Some (iblk i, fn) ->
  identIsOuterLocalVar s i = outerVar a j (absd n i).
Proof.
  intros s a i n j fn RR N J. destruct (RS_nth _ _ _ (r_rs _ _ RR) j _ _ J) as (_ & B0 & O).
  unfold identIsOuterLocalVar, outerVar. cbn [dk absd]. rewrite <- (RS_len _ _ _ (r_rs _ _ RR)), O. cbn [orb].
  assert (J2 : (j < List.length (items s))%nat) by (apply nth_error_Some; congruence).
  destruct (ikind_eqb (ik i) IVar); cbn [negb orb andb]; [|reflexivity].
  destruct (iblk i =? 0) eqn:E.
  - replace (Datatypes.S j <? List.length (items s))%nat with false by lia. reflexivity.
  - replace (Datatypes.S j <? List.length (items s))%nat with true by lia. reflexivity.
Qed.

Lemma res_thm : forall s a q, R s a ->
  resOf s (identFindEx s (qm q) (NUser (qnm q)) (qrcv q) (qmodule q)) = ares a (lookup a q).
Proof.
  intros s a q RR. pose proof (look_thm s a q RR) as H.
  destruct (identFindEx s (qm q) (NUser (qnm q)) (qrcv q) (qmodule q)) as [i|].
  - destruct H as (n & j & fn & N & L & J). rewrite L. cbn [resOf ares option_map fst snd].
    rewrite (outer_thm s a i n j fn RR N J). reflexivity.
  - rewrite H. reflexivity.
Qed.

(** ** Frames *)

Definition outerPart (s : st) : list ident := identFree (idents s) (curBlock s).

Record Fr (s s' : st) (n : Z) : Prop := {
  f_items : items s' = items s;
  f_cur : cur s' = cur s;
  f_outer : outerPart s' = outerPart s;
  f_nb : numBlocks s <= numBlocks s' <= numBlocks s + n;
  f_temps : temps s <= temps s' <= temps s + n;
  f_mods : (List.length (mods s) <= List.length (mods s'))%nat
}.

Lemma Fr_refl : forall s n, 0 <= n -> Fr s s n.
Proof. intros s n N. constructor; try reflexivity; lia. Qed.
Lemma Fr_trans : forall s1 s2 s3 m n, Fr s1 s2 m -> Fr s2 s3 n -> Fr s1 s3 (m + n).
Proof. intros s1 s2 s3 m n [] []. constructor; try congruence; lia. Qed.
Lemma Fr_mono : forall s1 s2 m n, Fr s1 s2 m -> m <= n -> Fr s1 s2 n.
Proof. intros s1 s2 m n [] L. constructor; try assumption; lia. Qed.

Lemma free_app : forall b g l, Forall (fun i => iblk i = b) g -> Forall (fun i => iblk i < b) l -> identFree (g ++ l) b = l.
Proof.
  induction g as [|i r IH]; intros l G L; cbn [app identFree].
  - destruct l as [|i r]; [reflexivity|]. cbn [identFree]. inversion L; subst. replace (iblk i =? b) with false by lia. reflexivity.
  - inversion G; subst. rewrite Z.eqb_refl. apply IH; assumption.
Qed.

Lemma RS_split : forall its l sc, RS its l sc -> exists b fn its' g l' sc',
  its = (b, fn) :: its' /\ l = g ++ l' /\ sc = (fn, absU g) :: sc' /\ Forall (fun i => iblk i = b) g /\ Forall (fun i => iblk i < b) l' /\
  (forall g', Forall (fun i => iblk i = b) g' -> RS its (g' ++ l') ((fn, absU g') :: sc')).
Proof.
  intros its l sc H. inversion H as [fn g F|b fn g its' l' sc' F T S]; subst.
  - exists 0, fn, [], l, [], []. rewrite app_nil_r. repeat split; auto. intros g' F'. rewrite app_nil_r. constructor. exact F'.
  - exists b, fn, its', g, l', sc'. split; [reflexivity|]. split; [reflexivity|]. split; [reflexivity|]. split; [exact F|]. split.
    + eapply Forall_impl; [|apply (RS_below _ _ _ S)]. cbv beta. intros i E. lia.
    + intros g' F'. constructor; assumption.
Qed.

Lemma lookIn_ge : forall Q l n j d, lookIn Q n l = Some (j, d) -> (n <= j)%nat.
Proof.
  induction l as [|[f ds] r IH]; intros n j d H; cbn [lookIn] in H; [discriminate|].
  destruct (List.find Q ds); [injection H as <- <-; lia|]. apply IH in H. lia.
Qed.

Lemma updIdent_out : forall id f l, ~ In id (map iid l) -> updIdent id f l = l.
Proof.
  induction l as [|i r IH]; intros N; [reflexivity|]. unfold updIdent in *. cbn [map] in *.
  destruct (iid i =? id) eqn:E; [exfalso; apply N; left; lia|]. rewrite IH; [reflexivity|]. intros I. apply N. right. exact I.
Qed.
Lemma updIdent_app : forall id f l1 l2, updIdent id f (l1 ++ l2) = updIdent id f l1 ++ updIdent id f l2.
Proof. intros. apply map_app. Qed.
Lemma updIdent_iid : forall id f l, (forall i, iid (f i) = iid i) -> map iid (updIdent id f l) = map iid l.
Proof.
  intros id f l F. unfold updIdent. rewrite map_map. apply map_ext. intros i. destruct (iid i =? id); auto.
Qed.
Lemma updIdent_Forall : forall (P : ident -> Prop) id f l, (forall i, iid i = id -> P i -> P (f i)) -> Forall P l -> Forall P (updIdent id f l).
Proof.
  intros P id f l F H. induction H as [|i r Hi Hr IH]; cbn; constructor; [|exact IH]. destruct (iid i =? id) eqn:E; [apply F; [lia|exact Hi]|exact Hi].
Qed.

(** Updating one identifier of the current block. *)
Lemma absU_upd : forall f g e n d, NoDup (map iid g) -> In e g -> inm e = NUser n ->
  (forall i, inm (f i) = inm i) -> absd n (f e) = d -> did d = iid e ->
  absU (updIdent (iid e) f g) = replace d (absU g).
Proof.
  intros f g e n d ND I N FN D DI. unfold updIdent, replace.
  induction g as [|i r IH]; [destruct I|]. cbn [map absU] in *. inversion ND as [|x y NI ND']; subst x y.
  destruct I as [->|I].
  - rewrite Z.eqb_refl, FN, N. cbn [map]. rewrite D. cbn [did absd]. rewrite DI, Z.eqb_refl. f_equal.
    clear IH. assert (K : forall x, In x r -> iid x <> iid e) by (intros x X E; apply NI; rewrite <- E; apply in_map; exact X).
    clear NI ND ND'. induction r as [|j r IH]; [reflexivity|]. cbn [map absU].
    pose proof (K j (or_introl eq_refl)) as Kj. replace (iid j =? iid e) with false by lia.
    assert (K' : forall x, In x r -> iid x <> iid e) by (intros x X; apply K; right; exact X).
    destruct (inm j); [|apply IH; exact K']. cbn [map did absd]. replace (iid j =? iid e) with false by lia. f_equal. apply IH; exact K'.
  - assert (Kj : iid i <> iid e) by (intros E; apply NI; rewrite E; apply in_map; exact I).
    replace (iid i =? iid e) with false by lia. destruct (inm i); [|apply IH; assumption].
    cbn [map did absd]. replace (iid i =? did d) with false by lia. f_equal. apply IH; assumption.
Qed.

Lemma NoDup_app_l : forall {A} (l1 l2 : list A), NoDup (l1 ++ l2) -> NoDup l1 /\ NoDup l2 /\ forall x, In x l1 -> ~ In x l2.
Proof.
  induction l1 as [|x r IH]; intros l2 H; cbn [app] in H.
  - split; [constructor|]. split; [exact H|]. intros x [].
  - inversion H as [|y z NI ND]; subst. destruct (IH _ ND) as (A1 & A2 & A3). split; [|split].
    + constructor; [|exact A1]. intros I. apply NI. apply in_or_app. left; exact I.
    + exact A2.
    + intros y [->|I]; [|apply A3; exact I]. intros I. apply NI. apply in_or_app. right; exact I.
Qed.

Lemma upd_R : forall s a f e n d, R s a -> In e (idents s) -> iblk e = curBlock s -> inm e = NUser n ->
  (forall i, inm (f i) = inm i /\ iid (f i) = iid i /\ iblk (f i) = iblk i) ->
  absd n (f e) = d ->
  forall fn ds r, scopes a = (fn, ds) :: r ->
  R (with_idents s (updIdent (iid e) f (idents s))) (with_scopes a ((fn, replace d ds) :: r)) /\
  Fr s (with_idents s (updIdent (iid e) f (idents s))) 0.
Proof.
  intros s a f e n d RR I B N F D fn ds r SC.
  destruct (RS_split _ _ _ (r_rs _ _ RR)) as (b & fn' & its' & g & l' & sc' & E1 & E2 & E3 & G & L & K).
  rewrite SC in E3. injection E3 as <- -> <-.
  assert (CB : curBlock s = b) by (unfold curBlock; rewrite E1; reflexivity).
  assert (Ig : In e g).
  { rewrite E2 in I. apply in_app_or in I. destruct I as [I|I]; [exact I|]. rewrite Forall_forall in L. specialize (L e I). cbv beta in L. lia. }
  pose proof (r_nodup _ _ RR) as ND. rewrite E2, map_app in ND. destruct (NoDup_app_l _ _ ND) as (N1 & N2 & N3).
  assert (UO : updIdent (iid e) f l' = l') by (apply updIdent_out, N3, in_map, Ig).
  assert (UE : updIdent (iid e) f (idents s) = updIdent (iid e) f g ++ l') by (rewrite E2, updIdent_app, UO; reflexivity).
  assert (G' : Forall (fun i => iblk i = b) (updIdent (iid e) f g)).
  { apply updIdent_Forall; [|exact G]. intros i _ Q. rewrite (proj2 (proj2 (F i))). exact Q. }
  assert (DI : did d = iid e) by (rewrite <- D; cbn [did absd]; apply F).
  split.
  - destruct RR. constructor; cbn [items idents scopes numBlocks temps nid cur mods with_idents with_scopes anid acur paths done imps]; try assumption.
    + rewrite UE. rewrite <- (absU_upd f g e n d N1 Ig N (fun i => proj1 (F i)) D DI). apply K. exact G'.
    + pose proof r_ids0 as IDS. rewrite Forall_forall in IDS. specialize (IDS e I). unfold idOk in IDS. rewrite N in IDS.
      apply updIdent_Forall; [|assumption]. intros i J Q. unfold idOk in *. rewrite (proj1 (F i)).
      destruct (inm i) as [u|u] eqn:Ei; [rewrite (proj1 (proj2 (F i))); exact Q|]. exfalso. lia.
    + rewrite updIdent_iid; [assumption|]. intros i. apply F.
  - constructor; cbn [items idents numBlocks temps nid cur mods with_idents]; try reflexivity; try lia.
    unfold outerPart. cbn [idents with_idents]. change (curBlock (with_idents s (updIdent (iid e) f (idents s)))) with (curBlock s).
    rewrite UE, CB, E2. rewrite !free_app; auto.
Qed.

(** ** Declarations *)

Definition addedSt (s : st) (i : ident) (n1 t1 : Z) : st :=
  {| idents := i :: idents s; temps := t1; nid := n1; items := items s; numBlocks := numBlocks s; cur := cur s; mods := mods s |}.

Lemma outer_cons : forall s i n1 t1, iblk i = curBlock s -> outerPart (addedSt s i n1 t1) = outerPart s.
Proof.
  intros s i n1 t1 B. unfold outerPart. change (curBlock (addedSt s i n1 t1)) with (curBlock s).
  cbn [idents addedSt identFree]. rewrite B, Z.eqb_refl. reflexivity.
Qed.

Lemma idOk_mono : forall t n t' n' i, t <= t' -> n <= n' -> idOk t n i -> idOk t' n' i.
Proof. intros t n t' n' i T N. unfold idOk. destruct (inm i); lia. Qed.

Lemma addUser_R : forall s a i nm fn ds r, R s a -> scopes a = (fn, ds) :: r -> iblk i = curBlock s -> inm i = NUser nm -> iid i = nid s ->
  R (addedSt s i (nid s + 1) (temps s))
    {| scopes := (fn, absd nm i :: ds) :: r; anid := anid a + 1; acur := acur a; paths := paths a; done := done a; imps := imps a |} /\
  Fr s (addedSt s i (nid s + 1) (temps s)) 0.
Proof.
  intros s a i nm fn ds r RR SC B N ID.
  destruct (RS_split _ _ _ (r_rs _ _ RR)) as (b & fn' & its' & g & l' & sc' & E1 & E2 & E3 & G & L & K).
  rewrite SC in E3. injection E3 as <- -> <-.
  assert (CB : curBlock s = b) by (unfold curBlock; rewrite E1; reflexivity).
  split.
  - destruct RR. constructor; cbn [items idents scopes numBlocks temps nid cur mods addedSt anid acur paths done imps]; try assumption; try lia.
    + rewrite E2. specialize (K (i :: g)). cbn [absU app] in K. rewrite N in K. apply K. constructor; [lia|exact G].
    + constructor; [unfold idOk; rewrite N; lia|]. eapply Forall_impl; [|exact r_ids0]. intros x X. eapply idOk_mono; [| |exact X]; lia.
    + cbn [map]. constructor; [|assumption]. intros I. apply in_map_iff in I. destruct I as (x & X1 & X2).
      rewrite Forall_forall in r_ids0. specialize (r_ids0 x X2). unfold idOk in r_ids0. destruct (inm x); lia.
  - constructor; cbn [items idents numBlocks temps nid cur mods addedSt]; try reflexivity; try lia. apply outer_cons. exact B.
Qed.

Lemma addTemp_R : forall s a i, R s a -> iblk i = curBlock s -> inm i = NTemp (temps s) -> iid i = - (temps s + 1) -> isFwd (ityp i) = false ->
  R (addedSt s i (nid s) (temps s + 1)) a /\ Fr s (addedSt s i (nid s) (temps s + 1)) 1.
Proof.
  intros s a i RR B N ID FW.
  destruct (RS_split _ _ _ (r_rs _ _ RR)) as (b & fn' & its' & g & l' & sc' & E1 & E2 & E3 & G & L & K).
  assert (CB : curBlock s = b) by (unfold curBlock; rewrite E1; reflexivity).
  split.
  - destruct RR. constructor; cbn [items idents scopes numBlocks temps nid cur mods addedSt]; try assumption; try lia.
    + rewrite E2, E3. specialize (K (i :: g)). cbn [absU app] in K. rewrite N in K. apply K. constructor; [lia|exact G].
    + constructor; [unfold idOk; rewrite N; lia|]. eapply Forall_impl; [|exact r_ids0]. intros x X. eapply idOk_mono; [| |exact X]; lia.
    + cbn [map]. constructor; [|assumption]. intros I. apply in_map_iff in I. destruct I as (x & X1 & X2).
      rewrite Forall_forall in r_ids0. specialize (r_ids0 x X2). unfold idOk in r_ids0. destruct (inm x); lia.
  - constructor; cbn [items idents numBlocks temps nid cur mods addedSt]; try reflexivity; try lia. apply outer_cons. exact B.
Qed.

Lemma atTop_len : forall s a, R s a -> atTop s = negb (1 <? List.length (scopes a))%nat.
Proof. intros s a RR. unfold atTop. rewrite (RS_len _ _ _ (r_rs _ _ RR)). lia. Qed.

Section SIM.
  Variable compatFn : nat -> nat -> bool.
  Variable nameOf : string -> option string.

  Lemma add_thm : forall s a k nm t ex val, R s a -> isFwd t || plainType k t = true ->
    match declare compatFn a k nm t ex (isFwd t) val with
    | Ok (a', id) => exists s', identAdd compatFn s k (NUser nm) t ex val = Ok (s', id) /\ R s' a' /\ Fr s s' 0 /\
        exists e n, In e (idents s') /\ iid e = id /\ iblk e = curBlock s' /\ inm e = NUser n
    | Err e => identAdd compatFn s k (NUser nm) t ex val = Err e
    | UB => False
    end.
  Proof.
    intros s a k nm t ex val RR PL.
    set (q := {| qm := acur a; qnm := nm; qrcv := rcvOf t; qmodule := ikind_eqb k IModule |}).
    destruct (RS_split _ _ _ (r_rs _ _ RR)) as (b & fn & its' & g & l' & sc' & E1 & E2 & E3 & G & L & K).
    assert (CB : curBlock s = b) by (unfold curBlock; rewrite E1; reflexivity).
    pose proof (look_thm s a q RR) as H. unfold identAdd, declare. rewrite E3. fold q.
    cbn [qm qnm qrcv qmodule q] in H. rewrite (r_cur _ _ RR) in H.
    assert (ADD : match List.find (answersb a q) (absU g) with Some _ => True | None =>
      match (let* _ := allowed a k t ex in Ok tt) with
      | Ok _ => exists s' id,
          (if ex && negb (atTop s) then Err ESyntax else
           if (match k with IConst | IVar => true | _ => false end) && isFwd t then Err EIllegalType else
           if (match k with IConst | IVar => true | _ => false end) && (match t with TVoid => true | _ => false end) then Err EIllegalType else
           Ok ({| idents := {| ik := k; inm := NUser nm; ityp := t; imod := cur s; iblk := curBlock s; iexp := ex; iproto := false; iid := nid s; ival := val |} :: idents s;
                  temps := temps s; nid := nid s + 1; items := items s; numBlocks := numBlocks s; cur := cur s; mods := mods s |}, nid s)) = Ok (s', id) /\ id = anid a /\
          R s' {| scopes := (fn, {| dk := k; dnm := nm; dty := t; dmod := acur a; dexp := ex; dopen := isFwd t; did := anid a; dval := val |} :: absU g) :: sc';
                  anid := anid a + 1; acur := acur a; paths := paths a; done := done a; imps := imps a |} /\ Fr s s' 0 /\
          exists e n, In e (idents s') /\ iid e = id /\ iblk e = curBlock s' /\ inm e = NUser n
      | Err e =>
          (if ex && negb (atTop s) then Err ESyntax else
           if (match k with IConst | IVar => true | _ => false end) && isFwd t then Err EIllegalType else
           if (match k with IConst | IVar => true | _ => false end) && (match t with TVoid => true | _ => false end) then Err EIllegalType else
           Ok ({| idents := {| ik := k; inm := NUser nm; ityp := t; imod := cur s; iblk := curBlock s; iexp := ex; iproto := false; iid := nid s; ival := val |} :: idents s;
                  temps := temps s; nid := nid s + 1; items := items s; numBlocks := numBlocks s; cur := cur s; mods := mods s |}, nid s)) = Err e
      | UB => False
      end end).
    { destruct (List.find (answersb a q) (absU g)); [exact Logic.I|].
      rewrite (atTop_len s a RR), negb_involutive. unfold allowed.
      destruct (ex && (1 <? List.length (scopes a))%nat); [reflexivity|].
      set (i := {| ik := k; inm := NUser nm; ityp := t; imod := cur s; iblk := curBlock s; iexp := ex; iproto := false; iid := nid s; ival := val |}).
      destruct (addUser_R s a i nm fn (absU g) sc' RR E3 eq_refl eq_refl eq_refl) as (RA & FA).
      assert (AB : absd nm i = {| dk := k; dnm := nm; dty := t; dmod := acur a; dexp := ex; dopen := isFwd t; did := anid a; dval := val |}).
      { unfold absd, i. cbn [ik ityp imod iexp iproto iid ival]. rewrite (r_cur _ _ RR), (r_nid _ _ RR). destruct t; reflexivity. }
      rewrite AB in RA.
      assert (GOOD : exists (s' : st) (id : Z),
        Ok (addedSt s i (nid s + 1) (temps s), nid s) = Ok (s', id) /\ id = anid a /\
        R s' {| scopes := (fn, {| dk := k; dnm := nm; dty := t; dmod := acur a; dexp := ex; dopen := isFwd t; did := anid a; dval := val |} :: absU g) :: sc';
                  anid := anid a + 1; acur := acur a; paths := paths a; done := done a; imps := imps a |} /\ Fr s s' 0 /\
        exists e n, In e (idents s') /\ iid e = id /\ iblk e = curBlock s' /\ inm e = NUser n).
      { exists (addedSt s i (nid s + 1) (temps s)), (nid s). split; [reflexivity|]. split; [symmetry; apply (r_nid _ _ RR)|].
        split; [exact RA|]. split; [exact FA|]. exists i, nm. split; [left; reflexivity|]. auto. }
      unfold addedSt in GOOD.
      destruct k, t; cbn [isFwd andb bind]; try reflexivity; exact GOOD. }
    destruct (identFindEx s (cur s) (NUser nm) (rcvOf t) (ikind_eqb k IModule)) as [e|] eqn:FE.
    - destruct H as (n & j & f & N & LK & J). unfold lookup in LK. rewrite E3, lookIn_eq in LK. cbn [lookIn] in LK.
      destruct (RS_nth _ _ _ (r_rs _ _ RR) _ _ _ J) as (JT & _). rewrite E1 in JT. cbn [topb] in JT.
      unfold identFindEx in FE. apply find_some in FE. destruct FE as [IN FE].
      destruct (iblk e =? curBlock s) eqn:EB.
      + assert (j = 0%nat) by (apply JT; lia). subst j.
        destruct (List.find (answersb a q) (absU g)) as [d|] eqn:FD; [|apply lookIn_ge in LK; lia].
        injection LK as ->. clear ADD.
        assert (EB' : iblk e = curBlock s) by lia.
        unfold tryResolveForwardType, tryResolveFnPrototype, completes. cbn [dopen dk dty absd dexp].
        assert (U1 : forall f d, (forall i, inm (f i) = inm i /\ iid (f i) = iid i /\ iblk (f i) = iblk i) -> absd n (f e) = d ->
          exists s', Ok (with_idents s (updIdent (iid e) f (idents s)), iid e) = Ok (s', iid e) /\
             R s' (with_scopes a ((fn, replace d (absU g)) :: sc')) /\ Fr s s' 0 /\
             exists e0 n0, In e0 (idents s') /\ iid e0 = iid e /\ iblk e0 = curBlock s' /\ inm e0 = NUser n0).
        { intros f0 d FF D. destruct (upd_R s a f0 e n d RR IN EB' N FF D fn (absU g) sc' E3) as (RA & FA).
          eexists. split; [reflexivity|]. split; [exact RA|]. split; [exact FA|].
          exists (f0 e), n. cbn [idents with_idents]. split.
          - unfold updIdent. apply in_map_iff. exists e. rewrite Z.eqb_refl. auto.
          - rewrite (proj1 (proj2 (FF e))), (proj2 (proj2 (FF e))), (proj1 (FF e)). auto. }
        destruct (ik e) eqn:KE; destruct (ityp e) as [bs|rc sg| |sb] eqn:TE; destruct k; cbn [bind];
          try (destruct (iproto e) eqn:PE); try reflexivity.
        all: try (destruct t as [bs2|rc2 sg2| |sb2]; cbn [isFwd bind]; try reflexivity; try discriminate PL).
        all: try (destruct (bs && negb (tstructured _)); cbn [bind]; [reflexivity|]; apply U1; [intros i; auto|]; unfold absd; cbn [ik ityp imod iexp iproto iid ival]; rewrite KE; reflexivity).
        all: rewrite ?andb_true_r, ?andb_false_r; try reflexivity.
        all: try (destruct (Bool.eqb (iexp e) ex) eqn:BE; cbn [andb bind]; [|reflexivity];
          destruct (compatFn sg sg2); cbn [andb bind]; try reflexivity; apply U1; [intros i; auto|]; apply eqb_prop in BE; unfold absd; cbn [ik ityp imod iexp iproto iid ival]; rewrite KE, BE, PE; reflexivity).
      + assert (j <> 0)%nat by (intros Z0; apply JT in Z0; lia).
        destruct (List.find (answersb a q) (absU g)) as [d|] eqn:FD; [injection LK as <- _; lia|].
        cbn [bind] in *. destruct (allowed a k t ex) as [u|e0|]; cbn [bind] in *; try exact ADD.
        destruct ADD as (s' & id & A1 & -> & A2 & A3 & A4). exists s'. auto.
    - unfold lookup in H. rewrite E3, lookIn_eq in H. cbn [lookIn] in H.
      destruct (List.find (answersb a q) (absU g)) as [d|] eqn:FD; [discriminate|].
      destruct (allowed a k t ex) as [u|e0|]; cbn [bind] in *; try exact ADD.
      destruct ADD as (s' & id & A1 & -> & A2 & A3 & A4). exists s'. auto.
  Qed.

  (** ** Temporaries *)
  Definition tempOf (s : st) (k : ikind) (t : ity) (b : Z) : ident :=
    {| ik := k; inm := NTemp (temps s); ityp := t; imod := cur s; iblk := b; iexp := false; iproto := false; iid := - (temps s + 1); ival := 0 |}.

  Lemma find_none_all : forall {A} (f : A -> bool) l, (forall x, In x l -> f x = false) -> List.find f l = None.
  Proof.
    induction l as [|x r IH]; intros H; cbn [List.find]; [reflexivity|]. rewrite (H x (or_introl eq_refl)). apply IH. intros y Y. apply H. right; exact Y.
  Qed.

  Lemma temp_thm : forall s k t, Forall (idOk (temps s) (nid s)) (idents s) -> temps s < INT_MAX -> k = IConst \/ k = IVar ->
    identAddTemp compatFn s k t = match tempOk t with
                         | Ok _ => Ok (addedSt s (tempOf s k t (curBlock s)) (nid s) (temps s + 1))
                         | Err e => Err e
                         | UB => UB
                         end.
  Proof.
    intros s k t IDS T K. unfold identAddTemp. replace (temps s =? INT_MAX) with false by lia.
    unfold identAdd. cbn [cur idents temps nid items numBlocks mods].
    replace (identFindEx _ _ _ _ _) with (@None ident).
    2: { symmetry. unfold identFindEx. cbn [idents]. apply find_none_all. intros x X. rewrite Forall_forall in IDS. specialize (IDS x X).
         unfold idOk in IDS. destruct (inm x) as [u|u]; cbn [name_eqb]; [rewrite andb_false_r; reflexivity|].
         replace (u =? temps s) with false by lia. rewrite andb_false_r. reflexivity. }
    cbn [andb]. unfold tempOk. destruct K as [-> | ->]; destruct t; cbn [isFwd andb bind fst]; reflexivity.
  Qed.

  Lemma temp_sim : forall s a k t, R s a -> temps s + 1 <= INT_MAX -> k = IConst \/ k = IVar ->
    match tempOk t with
    | Ok _ => exists s', identAddTemp compatFn s k t = Ok s' /\ R s' a /\ Fr s s' 1
    | Err e => identAddTemp compatFn s k t = Err e
    | UB => False
    end.
  Proof.
    intros s a k t RR T K. rewrite (temp_thm s k t (r_ids _ _ RR) ltac:(lia) K).
    destruct (tempOk t) as [u|e|] eqn:E; [|reflexivity|destruct t; discriminate].
    eexists. split; [reflexivity|]. apply addTemp_R; try reflexivity; [exact RR|]. cbn [ityp tempOf]. destruct t; try reflexivity; discriminate.
  Qed.

  (** ** Blocks *)
  Definition entered (s : st) (fn : bool) : st :=
    {| idents := idents s; temps := temps s; nid := nid s; items := (numBlocks s, fn) :: items s; numBlocks := numBlocks s + 1; cur := cur s; mods := mods s |}.

  Lemma enter_thm : forall s a fn, R s a -> numBlocks s + 1 <= INT_MAX ->
    match push a fn with
    | Ok a' => blocksEnterFn s fn = Ok (entered s fn) /\ R (entered s fn) a' /\ outerPart (entered s fn) = idents s
    | Err e => blocksEnterFn s fn = Err e
    | UB => False
    end.
  Proof.
    intros s a fn RR NB. unfold push, blocksEnterFn. rewrite (RS_len _ _ _ (r_rs _ _ RR)).
    destruct (100 <=? List.length (scopes a))%nat; [reflexivity|]. replace (numBlocks s =? INT_MAX) with false by lia.
    pose proof (RS_below _ _ _ (r_rs _ _ RR)) as BL. pose proof (r_nb _ _ RR) as NB2. pose proof (RS_top _ _ _ (r_rs _ _ RR)) as TP.
    split; [reflexivity|]. split.
    - destruct RR. constructor; cbn [items idents scopes numBlocks temps nid cur mods entered with_scopes anid acur paths done imps]; try assumption.
      + change (idents s) with ([] ++ idents s). apply (RS_push _ _ [] _ _ _); [constructor|lia|assumption].
      + cbn [topb]. lia.
    - unfold outerPart, curBlock. cbn [items idents entered]. change (idents s) with ([] ++ idents s). apply free_app; [constructor|].
      eapply Forall_impl; [|exact BL]. cbv beta. intros i I. lia.
  Qed.

  (** Leaving a block entered from state s. *)
  Lemma leave_thm : forall s a s0 a0 fn n, R s0 a0 -> R s a -> Fr (entered s0 fn) s n -> outerPart (entered s0 fn) = idents s0 ->
    exists s', closeBlock s = Ok s' /\ idents s' = idents s0 /\ items s' = items s0 /\ cur s' = cur s0 /\ R s' (pop a) /\ Fr s0 s' (n + 1) /\
      numBlocks s' = numBlocks s /\ temps s' = temps s.
  Proof.
    intros s a s0 a0 fn n R0 RR F OP. unfold closeBlock, blocksLeave.
    pose proof (f_items _ _ _ F) as FI. cbn [items entered] in FI.
    pose proof (RS_len _ _ _ (r_rs _ _ R0)) as L0.
    assert (NE : items s0 <> []) by (pose proof (r_rs _ _ R0) as R1; inversion R1; discriminate).
    unfold atTop at 1. cbn [items with_idents]. rewrite FI. cbn [List.length tl].
    replace (Datatypes.S (List.length (items s0)) <=? 1)%nat with false by (destruct (items s0); [congruence|cbn [List.length]; lia]).
    eexists. split; [reflexivity|]. cbn [idents items cur numBlocks temps nid mods with_idents with_items].
    pose proof (f_outer _ _ _ F) as FO. unfold outerPart at 1 in FO. rewrite OP in FO. rewrite FO.
    split; [reflexivity|]. split; [reflexivity|]. split; [rewrite (f_cur _ _ _ F); reflexivity|].
    assert (RSP : RS (items s0) (idents s0) (tl (scopes a))).
    { pose proof (r_rs _ _ RR) as RS1. rewrite FI in RS1. inversion RS1 as [f g GF E1 E2|b f g its l sc GF T S E1 E2 E3]; subst.
      - exfalso. destruct (items s0); [congruence|discriminate].
      - cbn [tl]. replace (idents s0) with l; [exact S|]. rewrite <- FO, <- E2. unfold curBlock. rewrite FI.
        symmetry. apply free_app; [exact GF|]. eapply Forall_impl; [|apply (RS_below _ _ _ S)]. cbv beta. intros i I. lia. }
    pose proof (f_nb _ _ _ F) as FN. pose proof (f_temps _ _ _ F) as FT. pose proof (f_mods _ _ _ F) as FM. cbn [numBlocks temps mods entered] in FN, FT, FM.
    split; [|split; [|split; reflexivity]].
    - pose proof (r_nb _ _ R0) as NB0. destruct RR.
      constructor; cbn [items idents scopes numBlocks temps nid cur mods with_items with_idents pop with_scopes anid acur paths done imps]; try assumption; try lia.
      + assert (SUB : forall x, In x (idents s0) -> In x (idents s)).
        { intros x X. rewrite <- FO in X. clear - X. induction (idents s) as [|i r IH]; cbn [identFree] in X; [exact X|].
          destruct (iblk i =? curBlock s); [right; apply IH; exact X|exact X]. }
        apply Forall_forall. intros x X. rewrite Forall_forall in r_ids0. apply r_ids0, SUB, X.
      + apply (r_nodup _ _ R0).
    - constructor; cbn [items idents numBlocks temps nid cur mods with_items with_idents]; try reflexivity; try lia.
      apply (f_cur _ _ _ F).
  Qed.

  (** ** Modules *)
  Lemma find_index : forall ms n p, moduleFindFrom ms n p = indexFrom (map mpath ms) n p.
  Proof.
    induction ms as [|x r IH]; intros n p; cbn [moduleFindFrom indexFrom map]; [reflexivity|]. destruct (String.eqb (mpath x) p); [reflexivity|apply IH].
  Qed.
  Lemma index_range : forall l n p m, indexFrom l n p = Some m -> n <= m < n + Z.of_nat (List.length l).
  Proof.
    induction l as [|x r IH]; intros n p m H; cbn [indexFrom List.length] in *; [discriminate|].
    destruct (String.eqb x p); [injection H as <-; lia|]. apply IH in H. lia.
  Qed.

  Lemma imported_iff : forall s a al, R s a ->
    moduleFindImported s al = existsb (fun x => (fst (fst x) =? acur a) && String.eqb (snd (fst x)) al) (imps a).
  Proof.
    intros s a al RR. destruct (r_mods _ _ RR) as (_ & HI & _). pose proof (r_curok _ _ RR) as C.
    unfold moduleFindImported, getMod. replace (cur s <? 0) with false by lia. apply eq_true_iff_eq. rewrite existsb_exists. split.
    - destruct (nth_error (mods s) (Z.to_nat (cur s))) as [x|] eqn:E; [|discriminate]. rewrite existsb_exists. intros ([j al'] & I & B).
      cbn [snd] in B. exists (cur s, al', j). split; [apply HI; exists x; split; [lia|auto]|]. cbn [fst snd]. rewrite (r_cur _ _ RR), B. lia.
    - intros ([[m al'] j] & I & B). cbn [fst snd] in B. rewrite (r_cur _ _ RR) in B. apply andb_true_iff in B. destruct B as [B1 B2].
      assert (m = cur s) as -> by lia. apply HI in I. destruct I as (x & _ & E & I). rewrite E. rewrite existsb_exists. exists (j, al'). auto.
  Qed.

  Lemma nth_upd : forall {A} (l : list A) n f k, nth_error (updNth l n f) k = if Nat.eqb k n then option_map f (nth_error l n) else nth_error l k.
  Proof.
    induction l as [|x r IH]; intros n f k; destruct n, k; cbn [updNth nth_error Nat.eqb option_map]; try reflexivity.
    - destruct (Nat.eqb k n); reflexivity.
    - apply IH.
  Qed.
  Lemma len_upd : forall {A} (l : list A) n f, List.length (updNth l n f) = List.length l.
  Proof. induction l as [|x r IH]; intros n f; destruct n; cbn [updNth List.length]; [reflexivity..|]. rewrite IH. reflexivity. Qed.
  Lemma map_upd : forall {A B} (g : A -> B) (l : list A) n f, (forall x, g (f x) = g x) -> map g (updNth l n f) = map g l.
  Proof.
    induction l as [|x r IH]; intros n f H; destruct n; cbn [updNth map]; [reflexivity..| |]; [rewrite H; reflexivity|]. rewrite IH by exact H. reflexivity.
  Qed.

  Lemma RM_add : forall ms ps dn im path nm, RM ms ps dn im ->
    RM (ms ++ [{| mpath := path; mcompiled := false; maliases := [(Z.of_nat (List.length ms), nm)] |}]) (ps ++ [path]) dn
       ((Z.of_nat (List.length ms), nm, Z.of_nat (List.length ms)) :: im).
  Proof.
    intros ms ps dn im path nm (H1 & H2 & H3).
    assert (N : forall k x, nth_error (ms ++ [{| mpath := path; mcompiled := false; maliases := [(Z.of_nat (List.length ms), nm)] |}]) k = Some x <->
      nth_error ms k = Some x \/ (k = List.length ms /\ x = {| mpath := path; mcompiled := false; maliases := [(Z.of_nat (List.length ms), nm)] |})).
    { intros k x. destruct (Nat.lt_ge_cases k (List.length ms)) as [L|L].
      - rewrite nth_error_app1 by exact L. split; [auto|]. intros [H|[H _]]; [exact H|lia].
      - rewrite nth_error_app2 by exact L. rewrite (proj2 (nth_error_None ms k) L). split.
        + intros H. destruct (k - List.length ms)%nat as [|d] eqn:D; cbn [nth_error] in H; [|destruct d; discriminate]. injection H as <-. right. split; [lia|reflexivity].
        + intros [H|[-> ->]]; [discriminate|]. rewrite Nat.sub_diag. reflexivity. }
    split; [|split].
    - rewrite H1, map_app. reflexivity.
    - intros m al j. cbn [In]. rewrite H2. split.
      + intros [H|(x & M & X & I)].
        * injection H as <- <- <-. eexists. split; [lia|]. split; [apply N; right; split; [lia|reflexivity]|]. left; reflexivity.
        * exists x. split; [exact M|]. split; [apply N; left; exact X|exact I].
      + intros (x & M & X & I). apply N in X. destruct X as [X|[X ->]]; [right; exists x; auto|].
        left. cbn [maliases In] in I. destruct I as [I|[]]. injection I as <- <-. f_equal. f_equal. lia.
    - intros m. rewrite H3. split.
      + intros (x & M & X & C). exists x. split; [exact M|]. split; [apply N; left; exact X|exact C].
      + intros (x & M & X & C). apply N in X. destruct X as [X|[X ->]]; [exists x; auto|discriminate].
  Qed.

  Lemma RM_alias : forall ms ps dn im c al m, RM ms ps dn im -> 0 <= c < Z.of_nat (List.length ms) ->
    RM (updNth ms (Z.to_nat c) (fun y => {| mpath := mpath y; mcompiled := mcompiled y; maliases := maliases y ++ [(m, al)] |})) ps dn ((c, al, m) :: im).
  Proof.
    intros ms ps dn im c al m (H1 & H2 & H3) C. split; [|split].
    - rewrite map_upd by reflexivity. exact H1.
    - intros m' al' j. cbn [In]. rewrite H2. split.
      + intros [H|(x & M & X & I)].
        * injection H as <- <- <-. destruct (nth_error ms (Z.to_nat c)) as [y|] eqn:E; [|apply nth_error_None in E; lia].
          eexists. split; [lia|]. rewrite nth_upd, Nat.eqb_refl, E. split; [reflexivity|]. cbn [maliases]. apply in_or_app. right. left. reflexivity.
        * destruct (Nat.eqb (Z.to_nat m') (Z.to_nat c)) eqn:E.
          -- eexists. split; [exact M|]. rewrite nth_upd, E. apply Nat.eqb_eq in E. rewrite <- E, X. split; [reflexivity|]. cbn [maliases]. apply in_or_app. left. exact I.
          -- exists x. rewrite nth_upd, E. auto.
      + intros (x & M & X & I). rewrite nth_upd in X. destruct (Nat.eqb (Z.to_nat m') (Z.to_nat c)) eqn:E.
        * apply Nat.eqb_eq in E. assert (m' = c) as -> by lia. destruct (nth_error ms (Z.to_nat c)) as [y|] eqn:Y; [|discriminate].
          injection X as <-. cbn [maliases] in I. apply in_app_or in I. destruct I as [I|[I|[]]].
          -- right. exists y. auto.
          -- left. injection I as <- <-. reflexivity.
        * right. exists x. auto.
    - intros m'. rewrite H3. split; intros (x & M & X & D).
      + destruct (Nat.eqb (Z.to_nat m') (Z.to_nat c)) eqn:E.
        * eexists. split; [exact M|]. rewrite nth_upd, E. apply Nat.eqb_eq in E. rewrite <- E, X. split; [reflexivity|exact D].
        * exists x. rewrite nth_upd, E. auto.
      + rewrite nth_upd in X. destruct (Nat.eqb (Z.to_nat m') (Z.to_nat c)) eqn:E.
        * apply Nat.eqb_eq in E. assert (m' = c) as -> by lia. destruct (nth_error ms (Z.to_nat c)) as [y|] eqn:Y; [|discriminate].
          injection X as <-. exists y. auto.
        * exists x. auto.
  Qed.

  Lemma RM_done : forall ms ps dn im c, RM ms ps dn im -> 0 <= c < Z.of_nat (List.length ms) ->
    RM (updNth ms (Z.to_nat c) (fun y => {| mpath := mpath y; mcompiled := true; maliases := maliases y |})) ps (c :: dn) im.
  Proof.
    intros ms ps dn im c (H1 & H2 & H3) C. split; [|split].
    - rewrite map_upd by reflexivity. exact H1.
    - intros m' al' j. rewrite H2. split; intros (x & M & X & I).
      + destruct (Nat.eqb (Z.to_nat m') (Z.to_nat c)) eqn:E.
        * eexists. split; [exact M|]. rewrite nth_upd, E. apply Nat.eqb_eq in E. rewrite <- E, X. split; [reflexivity|exact I].
        * exists x. rewrite nth_upd, E. auto.
      + rewrite nth_upd in X. destruct (Nat.eqb (Z.to_nat m') (Z.to_nat c)) eqn:E.
        * apply Nat.eqb_eq in E. assert (m' = c) as -> by lia. destruct (nth_error ms (Z.to_nat c)) as [y|] eqn:Y; [|discriminate].
          injection X as <-. exists y. auto.
        * exists x. auto.
    - intros m'. cbn [In]. rewrite H3. split.
      + intros [<-|(x & M & X & D)].
        * destruct (nth_error ms (Z.to_nat c)) as [y|] eqn:E; [|apply nth_error_None in E; lia].
          eexists. split; [lia|]. rewrite nth_upd, Nat.eqb_refl, E. split; reflexivity.
        * destruct (Nat.eqb (Z.to_nat m') (Z.to_nat c)) eqn:E.
          -- eexists. split; [exact M|]. rewrite nth_upd, E. apply Nat.eqb_eq in E. rewrite <- E, X. split; reflexivity.
          -- exists x. rewrite nth_upd, E. auto.
      + intros (x & M & X & D). rewrite nth_upd in X. destruct (Nat.eqb (Z.to_nat m') (Z.to_nat c)) eqn:E.
        * left. apply Nat.eqb_eq in E. lia.
        * right. exists x. auto.
  Qed.

  Lemma moduleAdd_thm : forall s a path, R s a ->
    match addModule nameOf a path with
    | Ok (a', m) => exists ms, moduleAdd nameOf s path = Ok (with_mods s ms, m) /\ m = Z.of_nat (List.length (mods s)) /\
        List.length ms = Datatypes.S (List.length (mods s)) /\ R (with_mods s ms) a'
    | Err e => moduleAdd nameOf s path = Err e
    | UB => False
    end.
  Proof.
    intros s a path RR. unfold addModule, moduleAdd, moduleFind. pose proof (r_mods _ _ RR) as RMM. pose proof RMM as (H1 & _).
    rewrite find_index, <- H1. assert (LL : List.length (paths a) = List.length (mods s)) by (rewrite H1; apply map_length). rewrite LL.
    destruct (1024 <=? List.length (mods s))%nat; [reflexivity|]. destruct (nameOf path) as [nm|]; [|reflexivity].
    destruct (indexFrom (paths a) 0 path); [reflexivity|].
    eexists. split; [reflexivity|]. split; [reflexivity|]. rewrite app_length. cbn [List.length]. split; [lia|].
    destruct RR. constructor; cbn [items idents scopes numBlocks temps nid cur mods with_mods anid acur paths done imps]; try assumption.
    - apply RM_add. assumption.
    - rewrite app_length. lia.
  Qed.

  Lemma R_mods : forall s a ms dn im, R s a -> RM ms (paths a) dn im -> List.length ms = List.length (mods s) ->
    R (with_mods s ms) {| scopes := scopes a; anid := anid a; acur := acur a; paths := paths a; done := dn; imps := im |}.
  Proof.
    intros s a ms dn im [] H L. constructor; cbn [items idents scopes numBlocks temps nid cur mods with_mods anid acur paths done imps]; try assumption. lia.
  Qed.

  Lemma import_thm : forall s a m al path, R s a -> 0 <= m < Z.of_nat (List.length (mods s)) ->
    match import compatFn a m al with
    | Ok a' => exists s', importModule compatFn s m al path = Ok s' /\ R s' a' /\ Fr s s' 0
    | Err e => importModule compatFn s m al path = Err e
    | UB => False
    end.
  Proof.
    intros s a m al path RR M. unfold import, importModule. pose proof (r_mods _ _ RR) as RMM. pose proof RMM as (H1 & H2 & H3).
    unfold getMod. replace (m <? 0) with false by lia.
    destruct (nth_error (mods s) (Z.to_nat m)) as [x|] eqn:E; [|apply nth_error_None in E; lia].
    assert (D : mcompiled x = existsb (Z.eqb m) (done a)).
    { apply eq_true_iff_eq. rewrite existsb_exists. split.
      - intros C. exists m. split; [apply H3; exists x; split; [lia|auto]|lia].
      - intros (m' & I & B). assert (m = m') as <- by lia. apply H3 in I. destruct I as (y & _ & Y & C). congruence. }
    rewrite D. destruct (existsb (Z.eqb m) (done a)); cbn [negb]; [|reflexivity].
    pose proof (importAlias_iff s a RMM (cur s) m ltac:(pose proof (r_curok _ _ RR); lia)) as IA. rewrite (r_cur _ _ RR). rewrite <- IA.
    destruct (importAlias s (cur s) m); [reflexivity|].
    assert (R1 : R (updMod s (cur s) (fun y => {| mpath := mpath y; mcompiled := mcompiled y; maliases := maliases y ++ [(m, al)] |}))
      {| scopes := scopes a; anid := anid a; acur := cur s; paths := paths a; done := done a; imps := (cur s, al, m) :: imps a |}).
    { pose proof (R_mods s a _ (done a) ((cur s, al, m) :: imps a) RR (RM_alias _ _ _ _ (cur s) al m RMM (r_curok _ _ RR)) (len_upd _ _ _)) as R1.
      rewrite (r_cur _ _ RR) in R1. exact R1. }
    pose proof (add_thm _ _ IModule al TVoid false m R1 eq_refl) as A. cbn [isFwd] in A.
    destruct (declare compatFn _ IModule al TVoid false false m) as [[a' id]|e|]; cbn [bind fst]; [|rewrite A; reflexivity|exact A].
    destruct A as (s' & A1 & A2 & A3 & _). rewrite A1. cbn [bind fst]. exists s'. split; [reflexivity|]. split; [exact A2|].
    destruct A3. constructor; try assumption; cbn [updMod with_mods items idents cur numBlocks temps mods] in *; try assumption. rewrite len_upd in *. assumption.
  Qed.

  (** ** The ternary operator *)
  Lemma insBefore_thm : forall t g l, (forall x, In x g -> match l with y :: _ => iid x <> iid y | [] => True end) ->
    insBefore t (g ++ l) (match l with i :: _ => Some (iid i) | [] => None end) = Some (g ++ t :: l).
  Proof.
    induction g as [|x r IH]; intros l H; cbn [app insBefore].
    - destruct l as [|y l]; cbn [insBefore]; [reflexivity|]. rewrite Z.eqb_refl. reflexivity.
    - replace (match (match l with i :: _ => Some (iid i) | [] => None end) with Some n => iid x =? n | None => false end) with false.
      2: { specialize (H x (or_introl eq_refl)). destruct l; [reflexivity|]. lia. }
      rewrite IH; [reflexivity|]. intros y Y. apply H. right; exact Y.
  Qed.

  Lemma tern_temp : forall s a s0 a0 n s' ty, R s0 a0 -> R s a -> Fr (entered s0 false) s n -> outerPart (entered s0 false) = idents s0 ->
    closeBlock s = Ok s' -> idents s' = idents s0 -> items s' = items s0 -> temps s + 1 <= INT_MAX ->
    let next := match idents s0 with i :: _ => Some (iid i) | [] => None end in
    let mid := match items s with
               | [] => UB
               | slot :: _ => let* s2 := blocksLeave s in let* s3 := identAddTemp compatFn s2 IVar ty in
                              Ok (blocksReenter (with_idents s3 (identMoveBefore (idents s3) next)) slot)
               end in
    match tempOk ty with
    | Ok _ => exists s3, mid = Ok s3 /\ closeBlock s3 = Ok (addedSt s' (tempOf s' IVar ty (curBlock s')) (nid s') (temps s' + 1))
    | Err e => mid = Err e
    | UB => False
    end.
  Proof.
    intros s a s0 a0 n s' ty R0 RR F OP CL I1 I2 T next mid.
    pose proof (f_items _ _ _ F) as FI. cbn [items entered] in FI.
    assert (NE : items s0 <> []) by (pose proof (r_rs _ _ R0) as R1; inversion R1; discriminate).
    assert (AT : atTop s = false) by (unfold atTop; rewrite FI; cbn [List.length]; destruct (items s0); [congruence|cbn [List.length]; lia]).
    pose proof (f_outer _ _ _ F) as FO. rewrite OP in FO. unfold outerPart in FO.
    unfold closeBlock, blocksLeave in CL. change (atTop (with_idents s (identFree (idents s) (curBlock s)))) with (atTop s) in CL. rewrite AT in CL.
    injection CL as <-. rewrite FO in *. cbn [idents items with_idents with_items nid temps numBlocks cur mods] in *.
    unfold mid. rewrite FI. unfold blocksLeave. rewrite AT. cbn [bind].
    pose proof (temp_thm (with_items s (tl (items s))) IVar ty (r_ids _ _ RR) ltac:(cbn [temps with_items]; lia) (or_intror eq_refl)) as TT.
    rewrite TT. destruct (tempOk ty) as [u|e|] eqn:TO; [|reflexivity|destruct ty; discriminate]. cbn [bind].
    eexists. split; [reflexivity|].
    destruct (RS_split _ _ _ (r_rs _ _ RR)) as (b & fn & its' & g & l' & sc' & E1 & E2 & E3 & G & L & K).
    assert (CB : curBlock s = b) by (unfold curBlock; rewrite E1; reflexivity).
    assert (EL : l' = idents s0) by (rewrite <- FO, E2, CB; symmetry; apply free_app; assumption). subst l'.
    pose proof (r_nodup _ _ RR) as ND. rewrite E2, map_app in ND. destruct (NoDup_app_l _ _ ND) as (N1 & N2 & N3).
    cbn [idents addedSt with_items identMoveBefore]. rewrite E2. unfold next. rewrite insBefore_thm.
    2: { intros x X. destruct (idents s0) as [|y l]; [exact Logic.I|]. intros E. apply (N3 (iid x)); [apply in_map; exact X|]. left. symmetry. exact E. }
    unfold closeBlock, blocksLeave, atTop, curBlock, blocksReenter.
    cbn [idents items with_idents with_items addedSt numBlocks temps nid cur mods List.length]. rewrite FI. cbn [tl List.length].
    replace (Datatypes.S (List.length (items s0)) <=? 1)%nat with false by (destruct (items s0); [congruence|cbn [List.length]; lia]).
    rewrite FI in E1. injection E1 as EB <- <-. subst b.
    assert (TB : topb (items s0) < numBlocks s0) by apply (r_nb _ _ R0).
    unfold addedSt, with_items, with_idents, tempOf, curBlock. cbn [idents items with_idents with_items addedSt numBlocks temps nid cur mods tl].
    rewrite ?FI. cbn [tl]. rewrite free_app; [reflexivity|exact G|]. constructor; [exact TB|exact L].
  Qed.

  (** ** Simulation *)
  Lemma fwd_thm : forall s a, R s a ->
    existsb (fun i => isFwd (ityp i)) (idents s) = existsb (fun x => existsb (fun d => isFwd (dty d)) (snd x)) (scopes a).
  Proof.
    intros s a RR. pose proof (r_ids _ _ RR) as IDS.
    assert (A : forall g, Forall (idOk (temps s) (nid s)) g -> existsb (fun i => isFwd (ityp i)) g = existsb (fun d => isFwd (dty d)) (absU g)).
    { induction 1 as [|i r Hi Hr IH]; cbn [existsb absU]; [reflexivity|]. unfold idOk in Hi. destruct (inm i).
      - cbn [existsb dty absd]. rewrite IH. reflexivity.
      - destruct Hi as (_ & _ & Hf). rewrite Hf. exact IH. }
    revert IDS. generalize (temps s) (nid s) A. clear A. intros t n A IDS.
    induction (r_rs _ _ RR) as [fn g F|b fn g its l sc F T S IH]; cbn [existsb snd].
    - rewrite orb_false_r. apply A. exact IDS.
    - apply Forall_app in IDS. destruct IDS as [D1 D2]. rewrite existsb_app, A by exact D1. f_equal. apply IH. exact D2.
  Qed.

  Lemma absU_In : forall g d, In d (absU g) -> exists i n, In i g /\ inm i = NUser n /\ d = absd n i.
  Proof.
    induction g as [|i r IH]; intros d H; cbn [absU] in H; [destruct H|]. destruct (inm i) as [n|n] eqn:N.
    - destruct H as [<-|H]; [exists i, n; split; [left; reflexivity|auto]|]. destruct (IH d H) as (j & m & A & B). exists j, m. split; [right; exact A|exact B].
    - destruct (IH d H) as (j & m & A & B). exists j, m. split; [right; exact A|exact B].
  Qed.

  Lemma open_thm : forall s a e n o, R s a -> In e (idents s) -> iblk e = curBlock s -> inm e = NUser n -> (exists rc sg, ityp e = TFn rc sg) ->
    let f := fun i => {| ik := ik i; inm := inm i; ityp := ityp i; imod := imod i; iblk := iblk i; iexp := iexp i; iproto := o; iid := iid i; ival := ival i |} in
    R (with_idents s (updIdent (iid e) f (idents s))) (setOpen a (iid e) o) /\ Fr s (with_idents s (updIdent (iid e) f (idents s))) 0.
  Proof.
    intros s a e n o RR I B N (rc & sg & TE) f.
    destruct (RS_split _ _ _ (r_rs _ _ RR)) as (b & fn & its' & g & l' & sc' & E1 & E2 & E3 & G & L & K).
    assert (CB : curBlock s = b) by (unfold curBlock; rewrite E1; reflexivity).
    assert (Ig : In e g).
    { rewrite E2 in I. apply in_app_or in I. destruct I as [I|I]; [exact I|]. rewrite Forall_forall in L. specialize (L e I). cbv beta in L. lia. }
    pose proof (r_nodup _ _ RR) as ND. rewrite E2, map_app in ND. destruct (NoDup_app_l _ _ ND) as (N1 & _ & _).
    destruct (upd_R s a f e n (absd n (f e)) RR I B N (fun i => conj eq_refl (conj eq_refl eq_refl)) eq_refl fn (absU g) sc' E3) as (A1 & A2).
    split; [|exact A2]. unfold setOpen. rewrite E3.
    replace (map _ (absU g)) with (replace (absd n (f e)) (absU g)); [exact A1|].
    unfold replace. apply map_ext_in. intros d D. cbn [did absd iid f]. destruct (did d =? iid e) eqn:X; [|reflexivity].
    destruct (absU_In g d D) as (i & m & Ii & Ni & ->). cbn [did absd] in X.
    assert (i = e).
    { assert (iid i = iid e) as E by lia. clear - N1 Ii Ig E. induction g as [|x r IH]; [destruct Ii|]. cbn [map] in N1. inversion N1 as [|y z NI ND]; subst y z.
      destruct Ii as [->|Ii], Ig as [->|Ig]; try reflexivity.
      - exfalso. apply NI. rewrite E. apply in_map. exact Ig.
      - exfalso. apply NI. rewrite <- E. apply in_map. exact Ii.
      - apply IH; assumption. }
    subst i. rewrite N in Ni. injection Ni as <-. unfold absd, f. cbn [dk dnm dty dmod dexp did dval ik inm ityp imod iexp iproto iid ival]. rewrite TE. reflexivity.
  Qed.

  (** The type of the identifier identAdd returns for a function. *)
  Lemma add_fn_type : forall s nm rc sg ex s' id, identAdd compatFn s IConst (NUser nm) (TFn rc sg) ex 0 = Ok (s', id) ->
    forall e, NoDup (map iid (idents s')) -> In e (idents s') -> iid e = id -> exists rc sg, ityp e = TFn rc sg.
  Proof.
    intros s nm rc sg ex s' id H e ND I ID.
    assert (UN : forall x, In x (idents s') -> iid x = id -> x = e).
    { intros x X E. rewrite <- ID in E. clear - ND X I E. induction (idents s') as [|y r IH]; [destruct X|]. cbn [map] in ND. inversion ND as [|u v NI ND']; subst u v.
      destruct X as [->|X], I as [->|I]; try reflexivity.
      - exfalso. apply NI. rewrite E. apply in_map. exact I.
      - exfalso. apply NI. rewrite <- E. apply in_map. exact X.
      - apply IH; assumption. }
    unfold identAdd in H. cbn [andb isFwd] in H.
    assert (ADD : forall r, (if ex && negb (atTop s) then Err ESyntax else
        Ok ({| idents := {| ik := IConst; inm := NUser nm; ityp := TFn rc sg; imod := cur s; iblk := curBlock s; iexp := ex; iproto := false; iid := nid s; ival := 0 |} :: idents s;
               temps := temps s; nid := nid s + 1; items := items s; numBlocks := numBlocks s; cur := cur s; mods := mods s |}, nid s)) = r ->
        r = Ok (s', id) -> exists rc sg, ityp e = TFn rc sg).
    { intros r <- E. destruct (ex && negb (atTop s)); [discriminate|]. injection E as <- <-. cbn [idents] in UN.
      rewrite <- (UN _ (or_introl eq_refl) eq_refl). cbn [ityp]. eauto. }
    destruct (identFindEx s (cur s) (NUser nm) (rcvOf (TFn rc sg)) (ikind_eqb IConst IModule)) as [x|] eqn:FE; [|eapply ADD; [reflexivity|exact H]].
    destruct (iblk x =? curBlock s); [|eapply ADD; [reflexivity|exact H]].
    unfold tryResolveForwardType, tryResolveFnPrototype in H. unfold identFindEx in FE. apply find_some in FE. destruct FE as [IN _].
    destruct (ik x); destruct (ityp x); try discriminate.
    destruct (Bool.eqb (iexp x) ex && compatFn sig sg && iproto x); [|discriminate]. injection H as <- <-.
    cbn [idents with_idents] in UN. erewrite <- (UN _); [| |].
    2: { unfold updIdent. apply in_map_iff. exists x. rewrite Z.eqb_refl. split; [reflexivity|exact IN]. }
    - cbn [ityp]. eauto.
    - reflexivity.
  Qed.

  Lemma bind_ok : forall {A B} (x : outcome A) (f : A -> outcome B) y, x = Ok y -> bind x f = f y.
  Proof. intros. subst. reflexivity. Qed.
  Lemma bind_err : forall {A B} (x : outcome A) (f : A -> outcome B) e, x = Err e -> bind x f = Err e.
  Proof. intros. subst. reflexivity. Qed.

  Lemma blocksOf_pos : forall c, 0 <= blocksOf c.
  Proof. induction c; cbn [blocksOf]; lia. Qed.

  Definition Sim (c : cmd) : Prop := forall s a, R s a -> plain c = true -> numBlocks s + blocksOf c <= INT_MAX -> temps s + blocksOf c <= INT_MAX ->
    match sem compatFn nameOf c a with
    | Ok (a', out) => exists s', exec compatFn nameOf c s = Ok (s', out) /\ R s' a' /\ Fr s s' (blocksOf c)
    | Err e => exec compatFn nameOf c s = Err e
    | UB => False
    end.

  Lemma decl_sim : forall s a k nm t ex, R s a -> plainType k t = true ->
    match (let* x := declare compatFn a k nm t ex false 0 in Ok (fst x, @nil res)) with
    | Ok (a', out) => exists s', (let* x := identAdd compatFn s k (NUser nm) t ex 0 in Ok (fst x, [])) = Ok (s', out) /\ R s' a' /\ Fr s s' 0
    | Err e => (let* x := identAdd compatFn s k (NUser nm) t ex 0 in Ok (fst x, @nil res)) = Err e
    | UB => False
    end.
  Proof.
    intros s a k nm t ex RR PL. pose proof (add_thm s a k nm t ex 0 RR ltac:(rewrite PL; apply orb_true_r)) as H.
    replace (isFwd t) with false in H by (destruct t; [discriminate|reflexivity..]).
    destruct (declare compatFn a k nm t ex false 0) as [[a' id]|e|]; cbn [bind fst]; [|rewrite H; reflexivity|exact H].
    destruct H as (s' & E & RA & FA & _). rewrite E. cbn [bind fst]. exists s'. auto.
  Qed.

  Lemma sim : forall c, Sim c.
  Proof.
    induction c as [|c1 IH1 c2 IH2|k nm t ex|nm rc sg ex proto|isC t|nm t ex|c1 IH1|nm bs|q nm|m nm rc|m nm|fn c1 IH1|t c1 IH1 c2 IH2|path al body IH];
      intros s a RR PL NB TB; cbn [plain blocksOf] in *.
    - cbn [sem exec]. exists s. split; [reflexivity|]. split; [exact RR|]. apply Fr_refl. lia.
    - apply andb_true_iff in PL. destruct PL as [P1 P2]. pose proof (blocksOf_pos c1). pose proof (blocksOf_pos c2). cbn [sem exec].
      specialize (IH1 s a RR P1 ltac:(lia) ltac:(lia)). destruct (sem compatFn nameOf c1 a) as [[a1 o1]|e|]; cbn [bind fst snd]; [|rewrite IH1; reflexivity|exact IH1].
      destruct IH1 as (s1 & E1 & R1 & F1). rewrite E1. cbn [bind fst snd].
      pose proof (f_nb _ _ _ F1). pose proof (f_temps _ _ _ F1).
      specialize (IH2 s1 a1 R1 P2 ltac:(lia) ltac:(lia)). destruct (sem compatFn nameOf c2 a1) as [[a2 o2]|e|]; cbn [bind fst snd]; [|rewrite IH2; reflexivity|exact IH2].
      destruct IH2 as (s2 & E2 & R2 & F2). rewrite E2. cbn [bind fst snd]. exists s2. split; [reflexivity|]. split; [exact R2|]. eapply Fr_trans; eassumption.
    - cbn [sem exec]. apply decl_sim; assumption.
    - cbn [sem exec]. rewrite (atTop_len s a RR), negb_involutive. destruct (1 <? List.length (scopes a))%nat; [reflexivity|].
      pose proof (add_thm s a IConst nm (TFn rc sg) ex 0 RR eq_refl) as H. cbn [isFwd] in H.
      destruct (declare compatFn a IConst nm (TFn rc sg) ex false 0) as [[a' id]|e|]; cbn [bind fst snd]; [|rewrite H; reflexivity|exact H].
      destruct H as (s' & E & RA & FA & e & n & I1 & I2 & I3 & I4). rewrite E. cbn [bind fst snd].
      pose proof (add_fn_type s nm rc sg ex s' id E e (r_nodup _ _ RA) I1 I2) as TF. subst id.
      destruct (open_thm s' a' e n proto RA I1 I3 I4 TF) as (B1 & B2).
      eexists. split; [reflexivity|]. split; [exact B1|]. apply (Fr_trans _ _ _ 0 0 FA B2).
    - cbn [sem exec]. pose proof (temp_sim s a (if isC then IConst else IVar) t RR TB ltac:(destruct isC; auto)) as H.
      destruct (tempOk t) as [u|e|]; cbn [bind]; [|rewrite H; reflexivity|exact H].
      destruct H as (s' & E & RA & FA). rewrite E. cbn [bind]. exists s'. auto.
    - cbn [sem exec]. pose proof (look_thm s a {| qm := acur a; qnm := nm; qrcv := None; qmodule := false |} RR) as H. cbn [qm qnm qrcv qmodule] in H.
      rewrite (r_cur _ _ RR) in *. pose proof (decl_sim s a IVar nm t ex RR PL) as D.
      destruct (identFindEx s (cur s) (NUser nm) None false) as [i|]; [|rewrite H; exact D].
      destruct H as (n & j & fn & N & LK & J). rewrite LK.
      destruct (RS_nth _ _ _ (r_rs _ _ RR) j _ _ J) as (JT & _). change (topb (items s)) with (curBlock s) in JT.
      destruct (ikind_eqb (ik i) IVar) eqn:KV; cbn [andb].
      + destruct (iblk i =? curBlock s) eqn:EB.
        * assert (j = 0%nat) by (apply JT; lia). subst j. cbn [dk absd]. rewrite KV. cbn [did absd]. exists s. split; [reflexivity|]. split; [exact RR|]. apply Fr_refl. lia.
        * destruct j as [|j]; [exfalso; assert (iblk i = curBlock s) by (apply JT; reflexivity); lia|]. exact D.
      + destruct j as [|j]; [|exact D]. cbn [dk absd]. rewrite KV. exact D.
    - cbn [sem exec]. specialize (IH1 s a RR PL NB TB). destruct (sem compatFn nameOf c1 a) as [[a1 o1]|e|]; cbn [bind fst snd]; [|rewrite IH1; reflexivity|exact IH1].
      destruct IH1 as (s1 & E1 & R1 & F1). rewrite E1. cbn [bind fst snd]. rewrite (fwd_thm s1 a1 R1).
      destruct (existsb (fun x => existsb (fun d => isFwd (dty d)) (snd x)) (scopes a1)); [reflexivity|]. exists s1. auto.
    - cbn [sem exec]. pose proof (look_thm s a {| qm := acur a; qnm := nm; qrcv := None; qmodule := false |} RR) as H. cbn [qm qnm qrcv qmodule] in H.
      rewrite (r_cur _ _ RR) in *. destruct (identFindEx s (cur s) (NUser nm) None false) as [i|].
      + destruct H as (n & j & fn & N & LK & J). rewrite LK. cbn [ares option_map fst snd]. rewrite <- (outer_thm s a i n j fn RR N J).
        exists s. split; [reflexivity|]. split; [exact RR|]. apply Fr_refl. lia.
      + rewrite H. pose proof (add_thm s a IType nm (TFwd bs) false 0 RR eq_refl) as A. cbn [isFwd] in A.
        destruct (declare compatFn a IType nm (TFwd bs) false true 0) as [[a' id]|e|]; cbn [bind fst snd]; [|rewrite A; reflexivity|exact A].
        destruct A as (s' & E & RA & FA & _). rewrite E. cbn [bind fst]. exists s'. auto.
    - cbn [sem exec]. exists s. split; [|split; [exact RR|apply Fr_refl; lia]]. do 3 f_equal. unfold qualFind, afind. destruct q as [al|].
      + pose proof (look_thm s a {| qm := acur a; qnm := al; qrcv := None; qmodule := true |} RR) as H. cbn [qm qnm qrcv qmodule] in H. rewrite (r_cur _ _ RR) in *.
        destruct (identFindEx s (cur s) (NUser al) None true) as [i|].
        * destruct H as (n & j & fn & N & LK & J). rewrite LK. cbn [dval absd].
          apply (res_thm s a {| qm := ival i; qnm := nm; qrcv := None; qmodule := false |} RR).
        * rewrite H. reflexivity.
      + rewrite <- (r_cur _ _ RR). apply (res_thm s a {| qm := acur a; qnm := nm; qrcv := None; qmodule := false |} RR).
    - cbn [sem exec]. exists s. split; [|split; [exact RR|apply Fr_refl; lia]]. do 3 f_equal.
      apply (res_thm s a {| qm := m; qnm := nm; qrcv := Some rc; qmodule := false |} RR).
    - cbn [sem exec]. exists s. split; [|split; [exact RR|apply Fr_refl; lia]]. do 3 f_equal.
      apply (res_thm s a {| qm := m; qnm := nm; qrcv := None; qmodule := false |} RR).
    - cbn [sem exec]. pose proof (blocksOf_pos c1). pose proof (enter_thm s a fn RR ltac:(lia)) as EN.
      destruct (push a fn) as [a1|e|]; cbn [bind]; [|rewrite EN; reflexivity|exact EN]. destruct EN as (E0 & R0 & OP). rewrite E0. cbn [bind].
      specialize (IH1 (entered s fn) a1 R0 PL ltac:(cbn [numBlocks entered]; lia) ltac:(cbn [temps entered]; lia)).
      destruct (sem compatFn nameOf c1 a1) as [[a2 o2]|e|]; cbn [bind fst snd]; [|rewrite IH1; reflexivity|exact IH1].
      destruct IH1 as (s2 & E2 & R2 & F2). rewrite E2. cbn [bind fst snd].
      destruct (leave_thm s2 a2 s a fn _ RR R2 F2 OP) as (s3 & E3 & _ & _ & _ & R3 & F3 & _). rewrite E3. cbn [bind].
      exists s3. split; [reflexivity|]. split; [exact R3|]. eapply Fr_mono; [exact F3|lia].
    - apply andb_true_iff in PL. destruct PL as [P1 P2]. pose proof (blocksOf_pos c1). pose proof (blocksOf_pos c2). cbn [sem exec].
      pose proof (enter_thm s a false RR ltac:(lia)) as EN.
      destruct (push a false) as [a1|e|]; cbn [bind]; [|rewrite EN; reflexivity|exact EN]. destruct EN as (E0 & R0 & OP). rewrite E0. cbn [bind].
      specialize (IH1 (entered s false) a1 R0 P1 ltac:(cbn [numBlocks entered]; lia) ltac:(cbn [temps entered]; lia)).
      destruct (sem compatFn nameOf c1 a1) as [[a2 o2]|e|]; cbn [bind fst snd]; [|rewrite IH1; reflexivity|exact IH1].
      destruct IH1 as (s2 & E2 & R2 & F2). rewrite E2. cbn [bind fst snd].
      pose proof (f_nb _ _ _ F2) as NB2. pose proof (f_temps _ _ _ F2) as TB2. cbn [numBlocks temps entered] in NB2, TB2.
      destruct (leave_thm s2 a2 s a false _ RR R2 F2 OP) as (s3 & E3 & I3 & T3 & C3 & R3 & F3 & NB3 & TB3).
      assert (MID : match (match t with Some ty => tempOk ty | None => Ok tt end) with
        | Ok _ => exists s4 s5,
            match t with
            | None => Ok s2
            | Some ty => match items s2 with
                         | [] => UB
                         | slot :: _ => let* x2 := blocksLeave s2 in let* x3 := identAddTemp compatFn x2 IVar ty in
                             Ok (blocksReenter (with_idents x3 (identMoveBefore (idents x3) (match idents s with i :: _ => Some (iid i) | [] => None end))) slot)
                         end
            end = Ok s4 /\ closeBlock s4 = Ok s5 /\ R s5 (pop a2) /\ Fr s s5 (blocksOf c1 + 1) /\ numBlocks s5 = numBlocks s2 /\ temps s5 <= temps s2 + 1
        | Err e => match t with
            | None => Ok s2
            | Some ty => match items s2 with
                         | [] => UB
                         | slot :: _ => let* x2 := blocksLeave s2 in let* x3 := identAddTemp compatFn x2 IVar ty in
                             Ok (blocksReenter (with_idents x3 (identMoveBefore (idents x3) (match idents s with i :: _ => Some (iid i) | [] => None end))) slot)
                         end
            end = Err e
        | UB => False
        end).
      { destruct t as [ty|].
        - pose proof (tern_temp s2 a2 s a _ s3 ty RR R2 F2 OP E3 I3 T3 ltac:(lia)) as H1. cbv zeta in H1.
          destruct (tempOk ty) as [u|e|] eqn:TO; [|exact H1|exact H1]. destruct H1 as (s4 & M1 & M2). eexists. eexists. split; [exact M1|]. split; [exact M2|].
          destruct (addTemp_R s3 (pop a2) (tempOf s3 IVar ty (curBlock s3)) R3 eq_refl eq_refl eq_refl) as (B1 & B2).
          { cbn [ityp tempOf]. destruct ty; try reflexivity; discriminate. }
          split; [exact B1|]. split; [|split; [exact NB3|cbn [temps addedSt]; lia]].
          destruct F3, B2. constructor; try congruence; try lia.
          all: cbn [numBlocks temps addedSt] in *; lia.
        - exists s2, s3. split; [reflexivity|]. split; [exact E3|]. split; [exact R3|]. split; [exact F3|]. split; [exact NB3|]. lia. }
      destruct (match t with Some ty => tempOk ty | None => Ok tt end) as [u|e|]; cbn [bind]; [|rewrite MID; reflexivity|exact MID].
      destruct MID as (s4 & s5 & M1 & M2 & R5 & F5 & NB5 & TB5). rewrite M1. cbn [bind]. rewrite M2. cbn [bind].
      pose proof (enter_thm s5 (pop a2) false R5 ltac:(lia)) as EN5.
      destruct (push (pop a2) false) as [a6|e|]; cbn [bind]; [|rewrite EN5; reflexivity|exact EN5]. destruct EN5 as (E6 & R6 & OP6). rewrite E6. cbn [bind].
      specialize (IH2 (entered s5 false) a6 R6 P2 ltac:(cbn [numBlocks entered]; lia) ltac:(cbn [temps entered]; lia)).
      destruct (sem compatFn nameOf c2 a6) as [[a7 o7]|e|]; cbn [bind fst snd]; [|rewrite IH2; reflexivity|exact IH2].
      destruct IH2 as (s7 & E7 & R7 & F7). rewrite E7. cbn [bind fst snd].
      destruct (leave_thm s7 a7 s5 (pop a2) false _ R5 R7 F7 OP6) as (s8 & E8 & _ & _ & _ & R8 & F8 & _). rewrite E8. cbn [bind].
      exists s8. split; [reflexivity|]. split; [exact R8|]. eapply Fr_mono; [eapply Fr_trans; [exact F5|exact F8]|lia].
    - cbn [sem exec]. pose proof (blocksOf_pos body). destruct (match al with Some al0 => Some al0 | None => nameOf path end) as [alias|]; [|reflexivity].
      rewrite (imported_iff s a alias RR). destruct (existsb _ (imps a)); [reflexivity|].
      pose proof (r_mods _ _ RR) as (PE & _). unfold moduleFind. rewrite find_index, <- PE.
      destruct (indexFrom (paths a) 0 path) as [m|] eqn:IX.
      + apply index_range in IX. rewrite PE, map_length in IX.
        pose proof (import_thm s a m alias path RR ltac:(lia)) as IM. destruct (import compatFn a m alias) as [a1|e|]; cbn [bind]; [|rewrite IM; reflexivity|exact IM].
        destruct IM as (s1 & E1 & R1 & F1). rewrite E1. cbn [bind]. exists s1. split; [reflexivity|]. split; [exact R1|]. eapply Fr_mono; [exact F1|lia].
      + pose proof (moduleAdd_thm s a path RR) as MA. destruct (addModule nameOf a path) as [[a1 m]|e|]; cbn [bind fst snd]; [|rewrite MA; reflexivity|exact MA].
        destruct MA as (ms & E1 & M & LM & R1). rewrite E1. cbn [bind fst snd].
        assert (R2 : R (with_cur (with_mods s ms) m) (with_acur a1 m)).
        { destruct R1. constructor; cbn [items idents scopes numBlocks temps nid cur mods with_mods with_cur with_acur anid acur paths done imps] in *; try assumption; try reflexivity. lia. }
        specialize (IH _ _ R2 PL NB TB). destruct (sem compatFn nameOf body (with_acur a1 m)) as [[a3 o3]|e|]; cbn [bind fst snd]; [|rewrite IH; reflexivity|exact IH].
        destruct IH as (s3 & E3 & R3 & F3). rewrite E3. cbn [bind fst snd].
        pose proof (f_mods _ _ _ F3) as FM. cbn [mods with_cur with_mods] in FM.
        assert (R4 : R (with_cur (updMod s3 m (fun z => {| mpath := mpath z; mcompiled := true; maliases := maliases z |})) (cur s))
          {| scopes := scopes a3; anid := anid a3; acur := acur a; paths := paths a3; done := m :: done a3; imps := imps a3 |}).
        { pose proof (r_curok _ _ RR). pose proof (r_cur _ _ RR). destruct R3.
          constructor; cbn [items idents scopes numBlocks temps nid cur mods with_mods with_cur updMod anid acur paths done imps] in *; try assumption.
          - apply RM_done; [assumption|lia].
          - rewrite len_upd. lia. }
        pose proof (import_thm _ _ m alias path R4 ltac:(cbn [mods with_cur updMod with_mods]; rewrite len_upd; lia)) as IM.
        destruct (import compatFn _ m alias) as [a5|e|]; cbn [bind]; [|rewrite IM; reflexivity|exact IM].
        destruct IM as (s5 & E5 & R5 & F5). rewrite E5. cbn [bind]. exists s5. split; [reflexivity|]. split; [exact R5|].
        destruct F3, F5. constructor; cbn [items cur outerPart numBlocks temps mods with_cur updMod with_mods] in *; try congruence; try lia.
        * rewrite f_outer1. change (outerPart s3 = outerPart s). rewrite f_outer0. reflexivity.
        * rewrite len_upd in *. lia.
  Qed.
End SIM.

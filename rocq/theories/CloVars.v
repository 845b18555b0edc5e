(** Variables, captured variables and the values of closure literals: lemmas for CloProofs.v. *)
From Coq Require Import ZArith Lia Bool List.
From Verif Require Import Base CloModel CloSpec CloMem CloRep.
Import ListNotations.
Local Open Scope Z_scope.

Definition disj (e f : nat * (place * ty)) : Prop :=
  (poff (fst (snd e)) + size (snd (snd e)) <= poff (fst (snd f)) \/ poff (fst (snd f)) + size (snd (snd f)) <= poff (fst (snd e)))%nat.
Definition isloc (p : place) : bool := match p with PLoc _ => true | PGlob _ => false end.
(** Variables at different slots from [lo] to [hi]. *)
Definition wf (k : bool) (lo hi : nat) (E : env) : Prop :=
  Forall (fun e => isloc (fst (snd e)) = k /\ (lo <= poff (fst (snd e)))%nat /\ (poff (fst (snd e)) + size (snd (snd e)) <= hi)%nat) E /\ ForallOrdPairs disj E.
Lemma wf_nil k lo hi : wf k lo hi [].
Proof. split; constructor. Qed.
Lemma wf_up k lo hi hi' E : (hi <= hi')%nat -> wf k lo hi E -> wf k lo hi' E.
Proof. intros H [F D]. split; [|exact D]. eapply Forall_impl; [|exact F]. cbn. intros e (H1 & H2 & H3). repeat split; auto; lia. Qed.
Lemma wf_down k lo lo' hi E : (lo' <= lo)%nat -> wf k lo hi E -> wf k lo' hi E.
Proof. intros H [F D]. split; [|exact D]. eapply Forall_impl; [|exact F]. cbn. intros e (H1 & H2 & H3). repeat split; auto; lia. Qed.
Lemma wf_cons k lo hi x p t E : isloc p = k -> (lo <= poff p)%nat -> (hi <= poff p)%nat -> wf k lo hi E -> wf k lo (poff p + size t) ((x, (p, t)) :: E).
Proof.
  intros Hk Hl Hp [F D]. split.
  - constructor; [cbn; auto|]. eapply Forall_impl; [|exact F]. cbn. intros e (H1 & H2 & H3). repeat split; auto; lia.
  - constructor; [|exact D]. eapply Forall_impl; [|exact F]. cbn. intros e (H1 & H2 & H3). unfold disj. cbn. lia.
Qed.
Lemma fop_app A (R : A -> A -> Prop) l m : ForallOrdPairs R l -> ForallOrdPairs R m -> Forall (fun x => Forall (R x) m) l -> ForallOrdPairs R (l ++ m).
Proof.
  induction 1 as [|a l H F IH]; intros M X; [exact M|]. inversion X; subst. cbn. constructor; [apply Forall_app; auto|auto].
Qed.
Lemma wf_app k lo mid hi E F : wf k mid hi E -> wf k lo mid F -> (lo <= mid)%nat -> (mid <= hi)%nat -> wf k lo hi (E ++ F).
Proof.
  intros [F1 D1] [F2 D2] H H'. split.
  - apply Forall_app. split; eapply Forall_impl; [|exact F1| |exact F2]; cbn; intros e (A & B & C); repeat split; auto; lia.
  - apply fop_app; auto. eapply Forall_impl; [|exact F1]. cbn. intros e (A & B & C). eapply Forall_impl; [|exact F2]. cbn. intros f (A' & B' & C'). unfold disj. lia.
Qed.
Lemma disj_sym e f : disj e f -> disj f e.
Proof. unfold disj. lia. Qed.
Lemma fop_rev E : ForallOrdPairs disj E -> ForallOrdPairs disj (rev E).
Proof.
  induction 1 as [|a l H F IH]; [constructor|]. cbn. apply fop_app; [exact IH|constructor; [constructor|constructor]|].
  apply Forall_rev. eapply Forall_impl; [|exact H]. cbn. intros x Hx. constructor; [apply disj_sym; exact Hx|constructor].
Qed.
Lemma wf_rev k lo hi E : wf k lo hi E -> wf k lo hi (rev E).
Proof. intros [F D]. split; [apply Forall_rev; exact F|apply fop_rev; exact D]. Qed.

Lemma globalEnv_wf gs : forall n, wf false n (n + sizes (map snd gs)) (globalEnv n gs).
Proof.
  induction gs as [|[x t] gs IH]; intros n; [apply wf_nil|]. cbn [globalEnv map snd sizes fold_right]. fold (sizes (map snd gs)).
  specialize (IH (n + size t)%nat). change ((x, (PGlob n, t)) :: globalEnv (n + size t) gs) with ([(x, (PGlob n, t))] ++ globalEnv (n + size t) gs).
  split.
  - constructor; [cbn; repeat split; lia|]. destruct IH as [F _]. eapply Forall_impl; [|exact F]. cbn. intros e (A & B & C). repeat split; auto; lia.
  - destruct IH as [F D]. constructor; [|exact D]. eapply Forall_impl; [|exact F]. cbn. intros e (A & B & C). unfold disj. cbn. lia.
Qed.
Lemma upEnv_wf l : forall n, wf true n (n + sizes (map snd l)) (upEnv n l).
Proof.
  induction l as [|[x t] l IH]; intros n; [apply wf_nil|]. cbn [upEnv map snd sizes fold_right]. fold (sizes (map snd l)).
  specialize (IH (n + size t)%nat). split.
  - constructor; [cbn; repeat split; lia|]. destruct IH as [F _]. eapply Forall_impl; [|exact F]. cbn. intros e (A & B & C). repeat split; auto; lia.
  - destruct IH as [F D]. constructor; [|exact D]. eapply Forall_impl; [|exact F]. cbn. intros e (A & B & C). unfold disj. cbn. lia.
Qed.
Lemma paramEnv_wf rs l : wf true rs (rs + sizes (map snd l)) (paramEnv rs l).
Proof.
  induction l as [|[x t] l IH]; [apply wf_nil|]. cbn [paramEnv map snd sizes fold_right]. fold (sizes (map snd l)).
  replace (rs + (size t + sizes (map snd l)))%nat with (poff (PLoc (rs + sizes (map snd l))) + size t)%nat by (cbn; lia). apply wf_cons with (hi := (rs + sizes (map snd l))%nat); auto; cbn; lia.
Qed.
Lemma fnEnv_wf caps ps r : wf true (resSlots r) (fnStart caps ps r) (fnEnv caps ps r).
Proof.
  unfold fnEnv, fnStart, paramSlots, upSlot. eapply wf_app with (mid := (resSlots r + sizes (map snd ps) + 2)%nat); try lia.
  - apply wf_rev. apply upEnv_wf.
  - apply wf_rev. eapply wf_up; [|apply paramEnv_wf]. lia.
Qed.

Section Vars.
Variable genv : env.
Variable tab : list fcode.
Notation isat := (isat genv tab).
Notation rep := (rep genv tab).
Notation repl := (repl genv tab).
Notation wrep := (wrep genv tab).
Notation clo := (clo genv tab).
Definition vrel (M : list block) (b : nat) (e : nat * (place * ty)) (x : nat * sval) : Prop :=
  fst e = fst x /\ isat M b (poff (fst (snd e))) (snd (snd e)) (snd x).
Definition holds (M : list block) (b : nat) (E : env) (V : vars) : Prop := Forall2 (vrel M b) E V.

Lemma holds_chg P M M' b k lo hi E V : chg P M M' -> wf k lo hi E -> (forall i, (lo <= i < hi)%nat -> ~ P b i) -> holds M b E V -> holds M' b E V.
Proof.
  intros C [F _] N H. induction H as [|e x E V [H1 H2] H IH]; [constructor|]. inversion F as [|? ? (A & B & D) F']; subst. constructor; [|apply IH; exact F'].
  split; [exact H1|]. eapply isat_chg; [exact C| |exact H2]. intros i Hi. apply N. lia.
Qed.
Lemma holds_find M b k lo hi E V x p t : holds M b E V -> wf k lo hi E -> find x E = Some (p, t) ->
  isloc p = k /\ (lo <= poff p)%nat /\ (poff p + size t <= hi)%nat /\ exists v, find x V = Some v /\ isat M b (poff p) t v.
Proof.
  intros H [F _]. revert F. induction H as [|[y [q u]] [z w] E V [H1 H2] H IH]; intros F X; [discriminate|]. cbn in *. subst z. inversion F as [|? ? (A & B & C) F']; subst. cbn in *.
  destruct (Nat.eqb x y); [|apply IH; assumption]. injection X as <- <-. eauto 10.
Qed.
Lemma holds_none M b E V x : holds M b E V -> find x E = None -> find x V = None.
Proof.
  intros H. induction H as [|[y [q u]] [z w] E V [H1 H2] H IH]; [auto|]. cbn in *. subst z. destruct (Nat.eqb x y); [discriminate|auto].
Qed.
Lemma update_none V x v : find x V = None -> update x v V = None.
Proof. induction V as [|[y w] V IH]; cbn; [auto|]. destruct (Nat.eqb x y); [discriminate|]. intros H. rewrite IH; auto. Qed.
Lemma holds_update M M' b E V x p t v : holds M b E V -> ForallOrdPairs disj E -> find x E = Some (p, t) ->
  chg (span b (poff p) (size t)) M M' -> isat M' b (poff p) t v -> exists V', update x v V = Some V' /\ holds M' b E V'.
Proof.
  intros H D X C A. revert D X. induction H as [|[y [q u]] [z w] E V [H1 H2] H IH]; intros D X; [discriminate|]. cbn [find update fst snd] in *. subst z. inversion D as [|? ? D1 D2]; subst.
  destruct (Nat.eqb x y) eqn:E1.
  - injection X as -> ->. eexists. split; [reflexivity|]. constructor; [split; auto|]. clear - D1 H C.
    induction H as [|e [z w] E V [H1 H2] H IH]; [constructor|]. inversion D1 as [|? ? Da Db]; subst. constructor; [|apply IH; exact Db]. split; [exact H1|].
    eapply isat_chg; [exact C| |exact H2]. unfold disj in Da. cbn in Da. unfold span. intros; lia.
  - destruct (IH D2 X) as (V' & -> & H'). eexists. split; [reflexivity|]. constructor; [|exact H']. split; [reflexivity|]. cbn [fst snd]. eapply isat_chg; [exact C| |exact H2].
    assert (In (x, (p, t)) E). { clear - X. induction E as [|[y a] E IH]; [discriminate|]. cbn in X. destruct (Nat.eqb_spec x y) as [->|]; [injection X as ->; left; auto|right; auto]. }
    rewrite Forall_forall in D1. specialize (D1 _ H0). unfold disj in D1. cbn in D1. unfold span. intros; lia.
Qed.
Lemma holds_len M b E V : holds M b E V -> length E = length V.
Proof. induction 1; cbn; auto. Qed.
Lemma find_app A x (l m : list (nat * A)) : find x (l ++ m) = match find x l with Some a => Some a | None => find x m end.
Proof. induction l as [|[y a] l IH]; cbn; [auto|]. destruct (Nat.eqb x y); auto. Qed.

(** The state in which code runs: its frame has [N] slots; variables are at slots from [lo] to [hi]; the global variables take [gn] slots. *)
Definition inv (gn N lo hi : nat) (EL : env) (M : list block) (b : nat) (L G : vars) : Prop :=
  frame M b N /\ (hi <= N)%nat /\ (lo <= hi)%nat /\ b <> 0%nat /\ frame M 0 gn /\ wf true lo hi EL /\ wf false 0 gn genv /\ holds M b EL L /\ holds M 0 genv G.
Lemma inv_find gn N lo hi EL M b L G x p t : inv gn N lo hi EL M b L G -> find x (EL ++ genv) = Some (p, t) ->
  (exists v, find x (L ++ G) = Some v /\ isat M (pblk b p) (poff p) t v) /\ (pblk b p = b -> (poff p + size t <= hi)%nat).
Proof.
  intros (F & HN & HL & B0 & F0 & W & WG & H & HG). rewrite !find_app. destruct (find x EL) as [[q u]|] eqn:E.
  - intros X. injection X as -> ->. destruct (holds_find _ _ _ _ _ _ _ _ _ _ H W E) as (K & A & B & v & Ev & Av). rewrite Ev. destruct p; [|discriminate]. cbn. eauto.
  - intros X. rewrite (holds_none _ _ _ _ _ H E). destruct (holds_find _ _ _ _ _ _ _ _ _ _ HG WG X) as (K & A & B & v & Ev & Av). rewrite Ev. destruct p; [discriminate|]. cbn. split; eauto. intros; congruence.
Qed.
(** What an expression may change. *)
Definition Pe (b n k i : nat) : Prop := k = 0%nat \/ (k = b /\ (n <= i)%nat).
Lemma inv_expr gn N lo hi hi' EL M M' b L G G' : inv gn N lo hi EL M b L G -> (hi <= hi' <= N)%nat -> chg (Pe b hi) M M' -> holds M' 0 genv G' -> inv gn N lo hi' EL M' b L G'.
Proof.
  intros (F & HN & HL & B0 & F0 & W & WG & H & HG) Hh C HG'. unfold inv. split; [eapply frame_chg; eauto|]. split; [lia|]. split; [lia|]. split; [exact B0|]. split; [eapply frame_chg; eauto|].
  split; [eapply wf_up; [|exact W]; lia|]. split; [exact WG|]. split; [|exact HG']. eapply holds_chg; [exact C|exact W| |exact H]. unfold Pe. intros; lia.
Qed.
(** A change of free slots. *)
Lemma inv_temp gn N lo hi hi' EL M M' b L G o n : inv gn N lo hi EL M b L G -> (hi <= hi' <= N)%nat -> chg (span b o n) M M' -> (hi <= o)%nat -> inv gn N lo hi' EL M' b L G.
Proof.
  intros (F & HN & HL & B0 & F0 & W & WG & H & HG) Hh C Ho. unfold inv. split; [eapply frame_chg; eauto|]. split; [lia|]. split; [lia|]. split; [exact B0|]. split; [eapply frame_chg; eauto|].
  split; [eapply wf_up; [|exact W]; lia|]. split; [exact WG|]. split.
  - eapply holds_chg; [exact C|exact W| |exact H]. unfold span. intros; lia.
  - eapply holds_chg; [exact C|exact WG| |exact HG]. unfold span. intros; lia.
Qed.

Section Code.
Context (cf : fcode -> st -> outcome st) (lim : nat).
Notation X := (exec tab cf lim).

(** The prologue: captured values are copied to variables of the call. *)
Lemma up_ok b n h d : forall caps cts off v M dp ds, frame M b n -> (v + sizes cts <= n)%nat -> repl M caps cts ds -> nth_error M h = Some (Blk true d) -> d = dp ++ ds -> length dp = off -> h <> b ->
  exists M', (forall k stk rg, X (upCode off v cts ++ k) (St M (VPtr h 0 :: stk) rg b) = X k (St M' (VPtr h 0 :: stk) rg b)) /\ chg (span b v (sizes cts)) M M' /\
    holds M' b (upEnv v (combine (map fst caps) cts)) caps.
Proof.
  induction caps as [|[x a] caps IH]; intros [|t cts] off v M dp ds F L R Hh D Lp Hb; try contradiction.
  - exists M. split; [reflexivity|]. split; [apply chg_refl|]. constructor.
  - destruct R as (d1 & d2 & -> & R1 & R2). cbn [sizes fold_right] in L. fold (sizes cts) in L.
    pose proof (rep_len _ _ _ _ _ _ R1) as L1.
    assert (A : isat M h off t a). { exists d1. split; [|exact R1]. rewrite <- Lp, <- L1. eapply reads_block; [exact Hh|exact D]. }
    destruct (zeroVar_ok tab cf lim M b n v (size t) F ltac:(lia)) as (M1 & Z1 & C1 & _).
    pose proof (frame_chg _ _ _ _ _ C1 F) as F1.
    assert (A1 : isat M1 h off t a). { eapply isat_chg; [exact C1| |exact A]. unfold span. intros i _ [? _]. contradiction. }
    assert (W : exists w, (forall k stk rg, X ((if structured t then [] else [IDeref]) ++ k) (St M (VPtr h off :: stk) rg b) = X k (St M (w :: stk) rg b)) /\ wrep M1 a t w).
    { destruct A as (sl & Ra & Qa). destruct A1 as (sl1 & Ra1 & Qa1). unfold CloRep.wrep. destruct (structured t) eqn:S.
      - exists (VPtr h off). split; [reflexivity|]. exists h, off, sl1. auto.
      - destruct t; [|discriminate]. cbn [size reads] in *. destruct (read M h off) as [w| |] eqn:E; try discriminate. cbn [bind] in Ra. injection Ra as <-.
        exists w. split; [intros; apply x_deref; exact E|]. eapply rep_heaps; [eapply chg_heaps; exact C1|exact Qa]. }
    destruct W as (w & Hw & W).
    destruct (store_ok genv tab M1 b n v t a w F1 ltac:(lia) W) as (M2 & S2 & C2 & A2).
    pose proof (heaps_trans _ _ _ (chg_heaps _ _ _ C1) (chg_heaps _ _ _ C2)) as H2.
    destruct (IH cts (off + size t)%nat (v + size t)%nat M2 (dp ++ d1) d2) as (M3 & E3 & C3 & H3); auto.
    + eapply frame_chg; eauto.
    + lia.
    + eapply repl_heaps; eauto.
    + rewrite <- app_assoc. exact D.
    + rewrite app_length. lia.
    + exists M3. split; [|split].
      * intros k stk rg. cbn [upCode app]. rewrite x_dup, x_field, <- app_assoc, Hw, <- app_assoc, Z1. cbn [app]. rewrite x_local. rewrite <- E3. apply x_assign. exact S2.
      * cbn [sizes fold_right]. fold (sizes cts).
        eapply chg_trans; [eapply chg_mono; [|exact C1]|eapply chg_trans; [eapply chg_mono; [|exact C2]|eapply chg_mono; [|exact C3]]]; intros k i _; unfold span; lia.
      * cbn [map fst combine upEnv]. constructor; [|exact H3]. split; [reflexivity|]. cbn. eapply isat_chg; [exact C3| |exact A2]. unfold span. intros; lia.
Qed.
Lemma combine_snd A B (l : list A) (m : list B) : length l = length m -> map snd (combine l m) = m.
Proof. revert m; induction l as [|a l IH]; intros [|b m] H; cbn in *; try discriminate; auto. f_equal. auto. Qed.
Lemma combine_fst A B (l : list A) (m : list B) : length l = length m -> map fst (combine l m) = l.
Proof. revert m; induction l as [|a l IH]; intros [|b m] H; cbn in *; try discriminate; auto. f_equal. auto. Qed.

(** The whole prologue, in a frame that starts with the parameters. *)
Lemma prologue_ok caps cts ps r M b n u1 u2 : length cts = length caps -> frame M b n -> (fnStart (combine (map fst caps) cts) ps r <= n)%nat ->
  reads M b (upSlot ps r) 2 = Ok [u1; u2] ->
  match caps with [] => True | _ => u2 = VTag cts /\ exists h d, u1 = VPtr h 0 /\ nth_error M h = Some (Blk true d) /\ repl M caps cts d end ->
  exists M', (forall k stk rg, X (prologue (combine (map fst caps) cts) ps r ++ k) (St M stk rg b) = X k (St M' stk rg b)) /\
    chg (span b (paramSlots ps r) (sizes cts)) M M' /\ holds M' b (upEnv (paramSlots ps r) (combine (map fst caps) cts)) caps.
Proof.
  intros Lc F Ln R H. assert (Ec : map snd (combine (map fst caps) cts) = cts) by (apply combine_snd; rewrite map_length; auto).
  unfold fnStart in Ln. rewrite Ec in Ln. destruct caps as [|x caps].
  - destruct cts; [|discriminate]. exists M. split; [reflexivity|]. split; [apply chg_refl|constructor].
  - destruct H as (-> & h & d & -> & Hh & Hr).
    assert (Hb : h <> b). { intros ->. destruct F as (d0 & E & _). rewrite Hh in E. discriminate. }
    destruct (up_ok b n h d (x :: caps) cts 0 (paramSlots ps r) M [] d F Ln Hr Hh eq_refl eq_refl Hb) as (M' & E & C & Hd).
    exists M'. split; [|split; assumption]. intros k stk rg. unfold prologue.
    destruct (combine (map fst (x :: caps)) cts) eqn:Z; [destruct cts; [discriminate Lc|discriminate Z]|]. rewrite Ec.
    cbn [app]. rewrite x_local. erewrite x_check by exact R. rewrite <- app_assoc, E. cbn [app]. apply x_pop.
Qed.

(** The code of a closure literal. *)
Lemma closure_ok gn N lo hi EL M b L G caps l vs ps r body t0 pb cb stk rg :
  inv gn N lo hi EL M b L G -> (hi + 3 + sizes (map snd l) + 2 <= N)%nat ->
  mapM (fun x => find x (EL ++ genv)) caps = Some l -> mapM (fun x => find x (L ++ G)) caps = Some vs ->
  cstmt genv r (fnEnv (combine caps (map snd l)) ps r) body (Cst (fnStart (combine caps (map snd l)) ps r) t0) = Ok (pb, cb) ->
  prefix (ctab cb ++ [fnCode (combine caps (map snd l)) ps r (fst pb) (cnext cb)]) tab ->
  exists M', (forall k, X (closureCode hi (hi + 3) (hi + 3 + sizes (map snd l)) (length (ctab cb)) l ++ k) (St M stk rg b) = X k (St M' (VPtr b hi :: stk) rg b)) /\
    chg (Pe b hi) M M' /\ holds M' 0 genv G /\ wrep M' (SClo (combine caps vs) ps body) (TFn (map snd ps) r) (VPtr b hi).
Proof.
  intros I LN Hl Hv Hc Ht. set (fc := fnCode (combine caps (map snd l)) ps r (fst pb) (cnext cb)) in *.
  assert (Ll : length l = length caps). { clear - Hl. revert l Hl. induction caps as [|x caps IH]; cbn; intros l H; [injection H as <-; auto|]. destruct (find x (EL ++ genv)); [|discriminate]. destruct (mapM _ caps); [|discriminate]. injection H as <-. cbn. f_equal. auto. }
  assert (Lv : length vs = length caps). { clear - Hv. revert vs Hv. induction caps as [|x caps IH]; cbn; intros l H; [injection H as <-; auto|]. destruct (find x (L ++ G)); [|discriminate]. destruct (mapM _ caps); [|discriminate]. injection H as <-. cbn. f_equal. auto. }
  assert (FS : map fst (combine caps vs) = caps) by (apply combine_fst; lia).
  pose proof I as (F & HN & HL & B0 & F0 & W & WG & H & HG).
  destruct (zeroVar_ok tab cf lim M b N hi 3 F ltac:(lia)) as (M1 & Z1 & C1 & R1).
  assert (I1 : inv gn N lo hi EL M1 b L G) by (eapply inv_temp; eauto; lia).
  pose proof (frame_chg _ _ _ _ _ C1 F) as F1.
  assert (Fin : forall M2 u1 u2 stk rg, frame M2 b N -> reads M2 b (hi + 1) 2 = Ok [u1; u2] ->
     match combine caps vs with [] => True | _ => u2 = VTag (map snd l) /\ exists h d, u1 = VPtr h 0 /\ nth_error M2 h = Some (Blk true d) /\ repl M2 (combine caps vs) (map snd l) d end ->
     exists M3, (forall k, X ([ILocal hi; IField 0; IPush (VZ (Z.of_nat (length (ctab cb)) + 1)); IAssign false None; ILocal hi] ++ k) (St M2 stk rg b) = X k (St M3 (VPtr b hi :: stk) rg b)) /\
       chg (span b hi 1) M2 M3 /\ wrep M3 (SClo (combine caps vs) ps body) (TFn (map snd ps) r) (VPtr b hi)).
  { intros M2 u1 u2 stk0 rg0 F2 R2 Hu. destruct (write_ok M2 b N hi (VZ (Z.of_nat (length (ctab cb)) + 1)) F2 ltac:(lia)) as (M3 & W3 & C3 & R3).
    exists M3. split; [|split; [exact C3|]].
    - intros k. cbn [app]. rewrite x_local, x_field, x_push, Nat.add_0_r. rewrite <- x_local. apply x_assign. exact W3.
    - exists b, hi, [VZ (Z.of_nat (length (ctab cb)) + 1); u1; u2]. split; [reflexivity|]. split.
      + cbn [size]. change [VZ (Z.of_nat (length (ctab cb)) + 1); u1; u2] with ([VZ (Z.of_nat (length (ctab cb)) + 1)] ++ [u1; u2]). apply (reads_app M3 b 1 2).
        * cbn [reads]. rewrite R3. reflexivity.
        * eapply reads_chg; [exact C3| |exact R2]. unfold span. intros; lia.
      + apply rep_clo. exists r, (length (ctab cb)), fc, u1, u2. split; [reflexivity|]. split; [reflexivity|]. split; [apply prefix_nth; exact Ht|].
        exists (map snd l), t0, pb, cb. rewrite FS. split; [rewrite map_length, combine_length; lia|]. split; [exact Hc|]. split; [reflexivity|].
        split; [eapply prefix_trans; [apply prefix_app|exact Ht]|]. pose proof (chg_heaps _ _ _ C3) as H3. destruct (combine caps vs) as [|y cv] eqn:Ecv; [exact Logic.I|].
        destruct Hu as (E2 & h & d & E1 & Hh & Hr). split; [exact E2|]. exists h, d. split; [exact E1|]. split; [apply H3; auto|]. eapply repl_heaps; eauto. }
  assert (Done : forall M', chg (fun k i => k = b /\ (hi <= i)%nat) M M' -> chg (Pe b hi) M M' /\ holds M' 0 genv G).
  { intros M' C. split; [eapply chg_mono; [|exact C]; unfold Pe; auto|]. eapply holds_chg; [exact C|exact WG| |exact HG]. cbn. intros; lia. }
  assert (Cs : forall o n M' M'', (hi <= o)%nat -> chg (span b o n) M' M'' -> chg (fun k i => k = b /\ (hi <= i)%nat) M' M'').
  { intros o n M' M'' Ho C. eapply chg_mono; [|exact C]. unfold span. intros; lia. }
  destruct l as [|p l].
  - cbn [map sizes fold_right closureCode]. destruct caps; [|discriminate]. destruct vs; [|discriminate].
    destruct (reads_split M1 b 1 2 hi _ R1) as (l1 & l2 & E & Ra & Rb). pose proof (reads_len _ _ _ _ _ Ra) as La. destruct l1 as [|a [|? ?]]; try discriminate. cbn in E. injection E as _ <-.
    destruct (Fin M1 (VZ 0) (VZ 0) stk rg F1 Rb Logic.I) as (M3 & E3 & C3 & W3). exists M3. split.
    + intros k. unfold closureCode. rewrite <- app_assoc, Z1. cbn [app]. apply E3.
    + destruct (Done M3) as [D1 D2]; [|auto]. eapply chg_trans; [eapply Cs; [|exact C1]; lia|eapply Cs; [|exact C3]; lia].
  - set (sz := sizes (map snd (p :: l))) in *. set (m := (hi + 3)%nat). set (q := (m + sz)%nat).
    destruct (zeroVar_ok tab cf lim M1 b N m sz F1 ltac:(unfold m; lia)) as (M2 & Z2 & C2 & R2).
    assert (I2 : inv gn N lo hi EL M2 b L G) by (eapply inv_temp; eauto; unfold m; lia).
    pose proof (frame_chg _ _ _ _ _ C2 F1) as F2.
    destruct (cap_ok genv tab cf lim b N m (p :: l) 0 M2 vs F2) as (M3 & d & E3 & C3 & R3 & P3).
    { fold sz. unfold m. lia. }
    { clear - Hl Hv I2. revert vs Hv Hl. generalize (p :: l). clear p l. intros l. revert l. induction caps as [|x caps IH]; cbn; intros l vs Hv Hl.
      - injection Hl as <-. injection Hv as <-. constructor.
      - destruct (find x (EL ++ genv)) as [[pp tt]|] eqn:Ex; [|discriminate]. destruct (mapM (fun x0 => find x0 (EL ++ genv)) caps) as [l0|] eqn:Em; [|discriminate]. injection Hl as <-.
        destruct (inv_find _ _ _ _ _ _ _ _ _ _ _ _ I2 Ex) as ((v & Ev & Av) & Hp). rewrite Ev in Hv. destruct (mapM (fun x => find x (L ++ G)) caps) as [v0|] eqn:Em2; [|discriminate]. injection Hv as <-.
        constructor; [|apply IH; reflexivity]. cbn. split; [exact Av|]. intros X. specialize (Hp X). lia. }
    fold sz in C3, R3. rewrite Nat.add_0_r in C3, R3.
    pose proof (frame_chg _ _ _ _ _ C3 F2) as F3.
    set (M4 := M3 ++ [Blk true d]). assert (C4 : chg (fun k i => k = b /\ (hi <= i)%nat) M3 M4) by apply chg_snoc.
    pose proof (frame_chg _ _ _ _ _ C4 F3) as F4.
    destruct (write_ok M4 b N q (VPtr (length M3) 0) F4 ltac:(unfold q, m; lia)) as (M5 & W5 & C5 & R5).
    pose proof (frame_chg _ _ _ _ _ C5 F4) as F5.
    destruct (write_ok M5 b N (q + 1) (VTag (map snd (p :: l))) F5 ltac:(unfold q, m; lia)) as (M6 & W6 & C6 & R6).
    pose proof (frame_chg _ _ _ _ _ C6 F5) as F6.
    assert (R6' : reads M6 b q 2 = Ok [VPtr (length M3) 0; VTag (map snd (p :: l))]).
    { cbn [reads]. rewrite (read_chg (span b (q + 1) 1) M5 M6 b q (VPtr (length M3) 0) C6 ltac:(unfold span; lia) R5). cbn [bind]. replace (S q) with (q + 1)%nat by lia. rewrite R6. reflexivity. }
    destruct (writes_ok b N [VPtr (length M3) 0; VTag (map snd (p :: l))] M6 (hi + 1) F6) as (M7 & W7 & C7 & R7); [cbn [length]; lia|]. cbn [length] in C7, R7.
    pose proof (frame_chg _ _ _ _ _ C7 F6) as F7.
    assert (C47 : chg (fun k i => k = b /\ (hi <= i)%nat) M4 M7).
    { eapply chg_trans; [eapply Cs; [|exact C5]; unfold q, m; lia|]. eapply chg_trans; [eapply Cs; [|exact C6]; unfold q, m; lia|]. eapply Cs; [|exact C7]. lia. }
    destruct (Fin M7 (VPtr (length M3) 0) (VTag (map snd (p :: l))) stk rg F7 R7) as (M8 & E8 & C8 & W8).
    { destruct (combine caps vs) as [|y cv] eqn:Ecv; [exact Logic.I|]. rewrite <- Ecv. split; [reflexivity|]. exists (length M3), d. split; [reflexivity|].
      pose proof (chg_heaps _ _ _ C47) as H47. split.
      - apply H47; [|reflexivity]. unfold M4. rewrite nth_error_app2 by lia. rewrite Nat.sub_diag. reflexivity.
      - eapply repl_heaps; [exact H47|]. eapply repl_heaps; [eapply chg_heaps; exact C4|]. apply P3. lia. }
    exists M8. split.
    + intros k. unfold closureCode. rewrite <- !app_assoc. rewrite Z1, Z2, E3. cbn [app]. rewrite x_local, x_field, x_local. erewrite x_escape by exact R3. fold M4. rewrite x_local.
      rewrite (x_assign tab cf lim true None _ M4 M5) by exact W5. rewrite x_push, x_local. rewrite (x_assign tab cf lim true None _ M5 M6) by exact W6. rewrite x_local.
      rewrite (x_assign tab cf lim false (Some 2%nat) _ M6 M7). { apply E8. } unfold store. rewrite R6'. exact W7.
    + destruct (Done M8) as [D1 D2]; [|auto]. eapply chg_trans; [eapply Cs; [|exact C1]; lia|]. eapply chg_trans; [eapply Cs; [|exact C2]; unfold m; lia|].
      eapply chg_trans; [eapply Cs; [|exact C3]; unfold m; lia|]. eapply chg_trans; [exact C4|]. eapply chg_trans; [exact C47|]. eapply Cs; [|exact C8]. lia.
Qed.
End Code.
End Vars.

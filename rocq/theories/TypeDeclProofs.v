(** Parsing of types: the invariant of the graph of types. *)
Require Import Arith List Bool Lia.
Require Import Verif.Base Verif.TypeDeclModel Verif.TypeDeclSpec.
Import ListNotations.
Local Open Scope nat_scope.

Scheme texpr_mut := Induction for texpr Sort Prop
with flds_mut := Induction for flds Sort Prop
with tys_mut := Induction for tys Sort Prop.
Combined Scheme texpr_all from texpr_mut, flds_mut, tys_mut.

Lemma nth_lt : forall A (l : list A) i x, nth_error l i = Some x -> i < List.length l.
Proof. intros. apply nth_error_Some. congruence. Qed.

Lemma nth_app_l : forall A (l r : list A) i x,
  nth_error l i = Some x -> nth_error (l ++ r) i = Some x.
Proof. intros. rewrite nth_error_app1; auto. eapply nth_lt; eauto. Qed.

Lemma nth_end : forall A (l : list A) x, nth_error (l ++ [x]) (List.length l) = Some x.
Proof. intros. rewrite nth_error_app2, Nat.sub_diag by auto. reflexivity. Qed.

Lemma nth_snoc : forall A (l : list A) x i y, nth_error (l ++ [x]) i = Some y ->
  nth_error l i = Some y \/ (i = List.length l /\ y = x).
Proof.
  intros A l x i y H. destruct (lt_dec i (List.length l)) as [Hl|Hl].
  - rewrite nth_error_app1 in H by auto. auto.
  - rewrite nth_error_app2 in H by lia. right.
    destruct (i - List.length l) as [|[|k]] eqn:E; cbn in H; try discriminate.
    injection H as <-. split; auto. lia.
Qed.

(** * Graphs *)
Definition byval (k : kind) : list nat :=
  match k with
  | KArr (S _) j => [j]
  | KStruct fs => map snd fs
  | _ => []
  end.

Lemma fin_intro : forall h i n, nth_error h i = Some n -> isForward (nk n) = false ->
  (forall j, In j (byval (nk n)) -> finite h j) -> finite h i.
Proof.
  intros h i n H F B. destruct (nk n) eqn:E; try discriminate;
    try (eapply fin_leaf; [exact H|rewrite E; exact I]).
  - destruct n0 as [|m].
    + eapply fin_leaf; [exact H|rewrite E; exact I].
    + eapply fin_arr; eauto; [lia|]. apply B. now left.
  - eapply fin_struct; eauto. intros x j Hj. apply B. apply in_map_iff.
    exists (x, j). auto.
Qed.

Lemma fin_inv : forall h i, finite h i -> exists n, nth_error h i = Some n /\
  isForward (nk n) = false /\ forall j, In j (byval (nk n)) -> finite h j.
Proof.
  intros h i H. destruct H as [i n H K|i n m j H K P F|i n fs H K F]; exists n;
    (split; [exact H|]).
  - destruct (nk n) as [| | | |[|m] ?| | | |]; try contradiction; split; auto;
      intros j [].
  - rewrite K. split; auto. destruct m; [lia|]. intros k [<-|[]]. auto.
  - rewrite K. split; auto. intros j Hj. cbn in Hj. apply in_map_iff in Hj.
    destruct Hj as ((x & k) & <- & Hj). eapply F; eauto.
Qed.

Lemma holds_inv : forall h i n, holdsPtr h i -> nth_error h i = Some n ->
  plainGc (nk n) = true \/ exists j, In j (byval (nk n)) /\ holdsPtr h j.
Proof.
  intros h i n H Hn. destruct H as [i m H K|i m k j H K P F|i m fs x j H K F G];
    rewrite Hn in H; injection H as <-.
  - left. destruct (nk n) as [|[?|]| | | | | | |]; try contradiction; auto.
  - right. rewrite K. exists j. destruct k; [lia|]. cbn. auto.
  - right. rewrite K. exists j. split; auto. cbn. apply in_map_iff. exists (x, j). auto.
Qed.

Lemma holds_intro : forall h i n, nth_error h i = Some n ->
  (plainGc (nk n) = true \/ exists j, In j (byval (nk n)) /\ holdsPtr h j) ->
  holdsPtr h i.
Proof.
  intros h i n H [K|(j & K & G)].
  - eapply ptr_leaf; eauto. destruct (nk n); try discriminate; auto.
    destruct b; [discriminate|auto].
  - destruct (nk n) eqn:E; try contradiction.
    + destruct n0; [contradiction|]. destruct K as [<-|[]].
      eapply ptr_arr; eauto. lia.
    + cbn in K. apply in_map_iff in K. destruct K as ((x & k) & <- & K).
      eapply ptr_struct; eauto.
Qed.

(** Types that are not forward stay. *)
Definition agree (h h' : list node) : Prop :=
  forall i n, nth_error h i = Some n -> isForward (nk n) = false ->
    nth_error h' i = Some n.

Lemma agree_app : forall h r, agree h (h ++ r).
Proof. intros h r i n H _. now apply nth_app_l. Qed.

Lemma finite_agree : forall h h' i, agree h h' -> finite h i -> finite h' i.
Proof.
  intros h h' i A H. induction H as [i n H K|i n m j H K P F IH|i n fs H K F IH].
  - eapply fin_leaf; [apply A; eauto|exact K]. destruct (nk n); try contradiction; auto.
  - eapply fin_arr; [apply A; eauto|exact K|exact P|auto]. now rewrite K.
  - eapply fin_struct; [apply A; eauto|exact K|auto]. now rewrite K.
Qed.

Lemma holds_agree : forall h h' i, agree h h' -> finite h i -> holdsPtr h' i ->
  holdsPtr h i.
Proof.
  intros h h' i A H. induction H as [i n H K|i n m j H K P F IH|i n fs H K F IH];
    intros G.
  - assert (H' : nth_error h' i = Some n).
    { apply A; auto. destruct (nk n); try contradiction; auto. }
    destruct (holds_inv _ _ _ G H') as [E|(j & E & _)].
    + eapply holds_intro; eauto.
    + destruct (nk n); try contradiction. destruct n0; contradiction.
  - assert (H' : nth_error h' i = Some n) by (apply A; auto; now rewrite K).
    destruct (holds_inv _ _ _ G H') as [E|(k & E & G2)].
    + eapply holds_intro; eauto.
    + eapply holds_intro; eauto. right. exists k. split; auto.
      rewrite K in E. destruct m; [lia|]. destruct E as [<-|[]]. auto.
  - assert (H' : nth_error h' i = Some n) by (apply A; auto; now rewrite K).
    destruct (holds_inv _ _ _ G H') as [E|(k & E & G2)].
    + eapply holds_intro; eauto.
    + eapply holds_intro; eauto. right. exists k. split; auto.
      rewrite K in E. cbn in E. apply in_map_iff in E.
      destruct E as ((x & k') & <- & E). eapply IH; eauto.
Qed.

Lemma findId_in : forall l x d, findId l x = Some d -> In d l /\ iname d = x.
Proof.
  induction l as [|c l IH]; intros x d H; cbn in H; [discriminate|].
  destruct (Nat.eqb_spec (iname c) x).
  - injection H as <-. split; [now left|auto].
  - destruct (IH _ _ H). split; [now right|auto].
Qed.

Lemma findId_none : forall l x, findId l x = None <-> ~ In x (map iname l).
Proof.
  induction l as [|c l IH]; intros x; cbn; [tauto|].
  destruct (Nat.eqb_spec (iname c) x).
  - split; [discriminate|]. intros H. exfalso. auto.
  - rewrite IH. tauto.
Qed.

Lemma findId_app : forall l r x, findId (l ++ r) x =
  match findId l x with Some d => Some d | None => findId r x end.
Proof.
  induction l as [|c l IH]; intros r x; cbn; auto. destruct (Nat.eqb (iname c) x); auto.
Qed.

Lemma existsb_in : forall x a, existsb (Nat.eqb x) a = true <-> In x a.
Proof.
  intros. rewrite existsb_exists. split.
  - intros (y & H1 & H2). apply Nat.eqb_eq in H2. now subst.
  - intros H. exists x. split; auto. apply Nat.eqb_refl.
Qed.

Lemma NoDup_app_single : forall A (l : list A) x, NoDup l -> ~ In x l -> NoDup (l ++ [x]).
Proof.
  induction l as [|y l IH]; intros x H K; cbn.
  - constructor; auto.
  - inversion H; subst. constructor.
    + intros J. apply in_app_or in J. destruct J as [J|[J|[]]]; [contradiction|].
      subst. apply K. now left.
    + apply IH; auto. intros J. apply K. now right.
Qed.

Section Decl.
Variable h0 : list node.
Variable ids0 : list ident.
Variable ds : list (nat * texpr).

Hypothesis Hsound0 : sound h0.
Hypothesis Hknown0 : known ids0 h0.

Notation outer := (outer ids0).
Notation declared := (declared ds).
Notation legal := (legal ids0 ds).
Notation mean := (mean ids0).

(** The name is declared as a structured type. *)
Definition structuredName (y : nat) : Prop :=
  forall e, In (y, e) ds -> structuredText e = true.

Definition Q : Prop := resultsPassed h0 /\ structuredResults ids0 ds.
Definition E : Prop :=
  (forall n, In n h0 -> nal n = true) /\ (forall x e, In (x, e) ds -> noEmpty e).

Definition nonfwd (h : list node) (i : nat) : Prop :=
  exists n, nth_error h i = Some n /\ isForward (nk n) = false.

(** A type that is not forward, with its label. *)
Definition nodeOk (h : list node) (L : list sty) (i : nat) (n : node) (t : sty) : Prop :=
  nid n = nameOf h0 t /\
  (exists s s', kindShape (nk n) = Some s /\ unfolds h0 ids0 ds t s' /\
                shapeRel (fun j u => nth_error L j = Some u) s s') /\
  (forall j, In j (parts (nk n)) -> j < List.length h) /\
  (forall j, In j (byval (nk n)) -> nonfwd h j) /\
  match nk n with KStruct fs => NoDup (map fst fs) | _ => True end /\
  (E -> nal n = true) /\
  (Q -> forall ps r hr, nk n = KFn ps r hr -> exists m, nth_error h r = Some m /\
     if isForward (nk m)
     then hr = true /\ exists y, nth_error L r = Some (SDecl y) /\ structuredName y
     else hr = structured (nk m)).

Definition gcOk (h : list node) (n : node) : Prop :=
  (plainGc (nk n) = true -> ngc n = true) /\
  (forall j, In j (byval (nk n)) -> holdsPtr h j -> ngc n = true).

Record Inv (an : list nat) (s : st) (L : list sty) : Prop := {
  I_len : List.length L = List.length (heap s);
  I_old : forall i n, nth_error h0 i = Some n ->
            nth_error (heap s) i = Some n /\ nth_error L i = Some (SOld i);
  I_ids : exists ex, ids s = ex ++ ids0 /\ NoDup (map iname ex) /\
    (forall x, In x an -> In x (map iname ex)) /\
    (forall d, In d ex -> icur d = true /\
       nth_error L (itype d) = Some (SDecl (iname d)) /\
       (exists n, nth_error (heap s) (itype d) = Some n /\
          ((In (iname d) an /\ isForward (nk n) = false) \/
           (~ In (iname d) an /\ isForward (nk n) = true /\
            findId ids0 (iname d) = None)))) /\
    (forall i n, nth_error (heap s) i = Some n -> isForward (nk n) = true ->
       exists d, In d ex /\ itype d = i);
  I_fwd : forall i n rbs, nth_error (heap s) i = Some n -> nk n = KForward rbs ->
    exists y, nth_error L i = Some (SDecl y) /\ (Q -> rbs = true -> structuredName y);
  I_fin : forall i n, nth_error (heap s) i = Some n -> isForward (nk n) = false ->
    finite (heap s) i /\ (holdsPtr (heap s) i -> ngc n = true);
  I_node : forall i n, nth_error (heap s) i = Some n -> isForward (nk n) = false ->
    exists t, nth_error L i = Some t /\ nodeOk (heap s) L i n t
}.

Lemma shapeRel_mono : forall (R R' : nat -> sty -> Prop) s s',
  (forall j u, R j u -> R' j u) -> shapeRel R s s' -> shapeRel R' s s'.
Proof.
  intros R R' s s' H K. destruct s, s'; cbn in *; auto.
  - destruct K. auto.
  - induction K as [|p q f g [K1 K2] K IH]; constructor; auto.
  - destruct K as [K1 K2]. split; auto. clear K2.
    induction K1; constructor; auto.
Qed.

(** * The node of a type is kept by additions. *)
Lemma nodeOk_app : forall h L r l i n t,
  nodeOk h L i n t -> nodeOk (h ++ r) (L ++ l) i n t.
Proof.
  intros h L r l i n t (A & (s & s' & B1 & B2 & B3) & C & D & F & J & K).
  split; [auto|]. split; [|split; [|split; [|split; [|split]]]]; auto.
  - exists s, s'. split; auto. split; auto. eapply shapeRel_mono; eauto.
    intros j u. apply nth_app_l.
  - intros j Hj. rewrite app_length. specialize (C j Hj). lia.
  - intros j Hj. destruct (D j Hj) as (m & M1 & M2). exists m. split; auto.
    now apply nth_app_l.
  - intros q ps rr hr Hk. destruct (K q ps rr hr Hk) as (m & M1 & M2).
    exists m. split; [now apply nth_app_l|]. destruct (isForward (nk m)); auto.
    destruct M2 as [M2 (y & M3 & M4)]. split; auto. exists y. split; auto.
    now apply nth_app_l.
Qed.

(** * A forward type is added *)
Lemma inv_forward : forall an s L x rbs,
  Inv an s L -> findId (ids s) x = None -> (Q -> rbs = true -> structuredName x) ->
  Inv an (mkSt (heap s ++ [mkNode (KForward rbs) false false (Some x)])
               (mkIdent x (List.length (heap s)) true :: ids s)) (L ++ [SDecl x]).
Proof.
  intros an s L x rbs [A B (ex & C1 & C2 & C3 & C4 & C5) F G N] Hf Hq.
  assert (Hx : ~ In x (map iname ex) /\ findId ids0 x = None).
  { rewrite C1, findId_app in Hf. destruct (findId ex x) eqn:Ex; [discriminate|].
    split; auto. now apply findId_none. }
  destruct Hx as [Hx1 Hx2].
  constructor; cbn [heap ids].
  - rewrite !app_length. cbn. lia.
  - intros i n Hi. destruct (B i n Hi). split; now apply nth_app_l.
  - exists (mkIdent x (List.length (heap s)) true :: ex). rewrite C1.
    split; [reflexivity|]. split; [cbn; constructor; auto|]. split; [|split].
    + intros y Hy. cbn. right. auto.
    + intros d [<-|Hd]; cbn [iname itype icur].
      * split; auto. split; [rewrite <- A; apply nth_end|].
        eexists. split; [apply nth_end|]. right. split; auto.
      * destruct (C4 d Hd) as (D1 & D2 & n & D3 & D4). split; auto.
        split; [now apply nth_app_l|]. exists n. split; auto. now apply nth_app_l.
    + intros i n Hi Hn. apply nth_snoc in Hi. destruct Hi as [Hi|[-> ->]].
      * destruct (C5 i n Hi Hn) as (d & D1 & D2). exists d. split; auto. now right.
      * eexists. split; [left; reflexivity|reflexivity].
  - intros i n r Hi Hn. apply nth_snoc in Hi. destruct Hi as [Hi|[-> ->]].
    + destruct (F i n r Hi Hn) as (y & Y1 & Y2). exists y. split; auto.
      now apply nth_app_l.
    + exists x. split; [rewrite <- A; apply nth_end|]. cbn in Hn. injection Hn as <-. auto.
  - intros i n Hi Hn. apply nth_snoc in Hi. destruct Hi as [Hi|[-> ->]]; [|discriminate].
    destruct (G i n Hi Hn) as [G1 G2]. split.
    + eapply finite_agree; [apply agree_app|auto].
    + intros K. apply G2. eapply holds_agree; eauto. apply agree_app.
  - intros i n Hi Hn. apply nth_snoc in Hi. destruct Hi as [Hi|[-> ->]]; [|discriminate].
    destruct (N i n Hi Hn) as (t & T1 & T2). exists t. split; [now apply nth_app_l|].
    now apply nodeOk_app.
Qed.

(** * Another type is added *)
Lemma inv_add : forall an s L n t,
  Inv an s L -> isForward (nk n) = false -> nodeOk (heap s) L (List.length (heap s)) n t ->
  gcOk (heap s) n -> Inv an (mkSt (heap s ++ [n]) (ids s)) (L ++ [t]).
Proof.
  intros an s L n t HI Hn Hok [H1 H2].
  pose proof HI as [A B (ex & C1 & C2 & C3 & C4 & C5) F G N].
  constructor; cbn [heap ids].
  - rewrite !app_length. cbn. lia.
  - intros i m Hi. destruct (B i m Hi). split; now apply nth_app_l.
  - exists ex. split; auto. split; auto. split; auto. split.
    + intros d Hd. destruct (C4 d Hd) as (D1 & D2 & m & D3 & D4). split; auto.
      split; [now apply nth_app_l|]. exists m. split; auto. now apply nth_app_l.
    + intros i m Hi Hm. apply nth_snoc in Hi. destruct Hi as [Hi|[-> ->]]; eauto.
      congruence.
  - intros i m r Hi Hm. apply nth_snoc in Hi. destruct Hi as [Hi|[-> ->]].
    + destruct (F i m r Hi Hm) as (y & Y1 & Y2). exists y. split; auto.
      now apply nth_app_l.
    + rewrite Hm in Hn. discriminate.
  - destruct Hok as (_ & _ & _ & D & _).
    assert (Hb : forall j, In j (byval (nk n)) -> finite (heap s) j /\
                 (holdsPtr (heap s) j -> ngc n = true)).
    { intros j Hj. destruct (D j Hj) as (m & M1 & M2). destruct (G j m M1 M2) as [G1 G2].
      split; [auto|]. intros K. eapply H2; eauto. }
    intros i m Hi Hm. apply nth_snoc in Hi. destruct Hi as [Hi|[-> ->]].
    + destruct (G i m Hi Hm) as [G1 G2]. split.
      * eapply finite_agree; [apply agree_app|auto].
      * intros K. apply G2. eapply holds_agree; eauto. apply agree_app.
    + split.
      * eapply fin_intro; [apply nth_end|auto|]. intros j Hj.
        eapply finite_agree; [apply agree_app|]. now apply Hb.
      * intros K. destruct (holds_inv _ _ _ K (nth_end _ _ _)) as [K1|(j & K1 & K2)]; auto.
        destruct (Hb j K1) as [F1 F2]. apply F2. eapply holds_agree; eauto.
        apply agree_app.
  - intros i m Hi Hm. apply nth_snoc in Hi. destruct Hi as [Hi|[-> ->]].
    + destruct (N i m Hi Hm) as (u & T1 & T2). exists u. split; [now apply nth_app_l|].
      now apply nodeOk_app.
    + exists t. split; [rewrite <- A; apply nth_end|]. now apply nodeOk_app.
Qed.

(** * Lookups *)
Lemma inv_find : forall an s L x d, Inv an s L -> findId (ids s) x = Some d ->
  nth_error L (itype d) = Some (refers ids0 an x) /\
  (exists n, nth_error (heap s) (itype d) = Some n /\
     (isForward (nk n) = false -> outer x \/ In x an) /\
     (outer x \/ In x an -> isForward (nk n) = false)).
Proof.
  intros an s L x d [A B (ex & C1 & C2 & C3 & C4 & C5) F G N] Hf.
  rewrite C1, findId_app in Hf. unfold refers.
  destruct (findId ex x) as [d'|] eqn:Ex.
  - injection Hf as <-. destruct (findId_in _ _ _ Ex) as [Hin <-].
    destruct (C4 d' Hin) as (D1 & D2 & n & D3 & D4).
    destruct (existsb (Nat.eqb (iname d')) an) eqn:Ea.
    + apply existsb_in in Ea. split; auto. exists n. split; auto.
      destruct D4 as [[D4 D5]|[D4 _]]; [|contradiction]. split; auto.
    + assert (Hn : ~ In (iname d') an) by (intros K; apply existsb_in in K; congruence).
      destruct D4 as [[D4 _]|(_ & D5 & D6)]; [contradiction|]. rewrite D6. split; auto.
      exists n. split; auto. split; [congruence|]. intros [K|K]; contradiction.
  - assert (Hn : ~ In x an).
    { intros K. apply C3 in K. apply findId_none in Ex. contradiction. }
    destruct (existsb (Nat.eqb x) an) eqn:Ea; [apply existsb_in in Ea; contradiction|].
    rewrite Hf. destruct (findId_in _ _ _ Hf) as [Hin _].
    specialize (Hknown0 d Hin). destruct (nth_error h0 (itype d)) as [n|] eqn:En.
    2:{ apply nth_error_None in En. lia. }
    destruct (B _ _ En). split; auto. exists n. split; auto. split.
    + intros _. left. unfold TypeDeclSpec.outer. congruence.
    + intros _. destruct (Hsound0 _ _ En) as [Hfi _]. apply fin_inv in Hfi.
      destruct Hfi as (m & M1 & M2 & _). congruence.
Qed.

Lemma label_lt : forall an s L i t, Inv an s L -> nth_error L i = Some t ->
  i < List.length (heap s).
Proof. intros an s L i t HI H. rewrite <- (I_len _ _ _ HI). eapply nth_lt; eauto. Qed.

Definition allDecl (s : st) : Prop :=
  forall d, In d (ids s) -> outer (iname d) \/ declared (iname d).

Definition resOk (an : list nat) (l : list nat) : Prop :=
  forall y, In y l -> ~ In y an -> ~ outer y -> structuredName y.

Definition behind (an : list nat) (e : texpr) : Prop :=
  match e with TName x => outer x \/ declared x | _ => legal an e end.

Definition isName (e : texpr) : bool := match e with TName _ => true | _ => false end.

(** What parsing a type achieves. *)
Definition PT (e : texpr) : Prop := forall an s L s' i,
  Inv an s L -> (Q -> resOk an (results e)) -> (E -> noEmpty e) ->
  parseType s e = Ok (s', i) ->
  exists hx L', heap s' = heap s ++ hx /\ Inv an s' (L ++ L') /\
    nth_error (L ++ L') i = Some (mean an e) /\ incl (ids s) (ids s') /\
    (isName e = false -> nonfwd (heap s') i) /\
    (structuredText e = true -> exists n, nth_error (heap s') i = Some n /\
                                          structured (nk n) = true) /\
    (allDecl s' -> nonfwd (heap s') i -> E -> legal an e).

Definition resName (e : texpr) : list nat :=
  match e with TName x => [x] | _ => results e end.

Definition PF (e : texpr) : Prop := forall an s L s' i (rbs : bool),
  Inv an s L ->
  (Q -> resOk an (if rbs then resName e else results e)) -> (E -> noEmpty e) ->
  orForward s rbs e (parseType s e) = Ok (s', i) ->
  exists hx L', heap s' = heap s ++ hx /\ Inv an s' (L ++ L') /\
    nth_error (L ++ L') i = Some (mean an e) /\ incl (ids s) (ids s') /\
    (allDecl s' -> E -> behind an e) /\
    (allDecl s' -> nonfwd (heap s') i -> E -> legal an e).

Lemma PT_PF : forall e, PT e -> PF e.
Proof.
  intros e H an s L s' i rbs HI Hr He Hp. destruct e as [x|e|e|n e|e|e|fs|ps r].
  1: { cbn [orForward] in Hp. destruct (findId (ids s) x) as [d|] eqn:Ef.
    - destruct (H an s L s' i HI) as (hx & L' & A & B & C & D & F & G & K); auto.
      { intros q y []. }
      exists hx, L'. repeat (split; [assumption|]). split; auto.
      intros Ha Hee. cbn. cbn [parseType] in Hp. rewrite Ef in Hp. injection Hp as <- <-.
      destruct (findId_in _ _ _ Ef) as [Hin <-]. apply Ha. auto.
    - cbn in Hp. injection Hp as <- <-.
      assert (Hx : ~ In x an /\ findId ids0 x = None).
      { destruct HI as [_ _ (ex & C1 & _ & C3 & _) _ _ _]. rewrite C1, findId_app in Ef.
        destruct (findId ex x) eqn:Ex; [discriminate|]. split; auto. intros K.
        apply C3 in K. apply findId_none in Ex. contradiction. }
      destruct Hx as [Hx1 Hx2].
      exists [mkNode (KForward rbs) false false (Some x)], [SDecl x].
      split; [reflexivity|]. split.
      + apply inv_forward; auto. intros q ->. apply (Hr q x); cbn; auto.
      + split; [|split; [|split]].
        * rewrite <- (I_len _ _ _ HI). rewrite nth_end. cbn. unfold refers.
          destruct (existsb (Nat.eqb x) an) eqn:Ea; auto. now rewrite Hx2.
        * intros d Hd. cbn. now right.
        * intros Ha _. cbn.
          apply (Ha (mkIdent x (List.length (heap s)) true)). now left.
        * intros _ (n & N1 & N2). cbn [heap] in N1. rewrite nth_end in N1.
          injection N1 as <-. discriminate. }
  all: cbn [orForward] in Hp.
  all: edestruct (H an s L s' i HI) as (hx & L' & A & B & C & D & F & G & K);
    [destruct rbs; exact Hr|exact He|exact Hp|].
  all: exists hx, L'; repeat (split; [assumption|]); split; auto.
  all: intros Ha Hee; apply K; auto.
Qed.

Definition PFs (fs : flds) : Prop := forall an s L s' acc gc l g,
  Inv an s L -> (Q -> resOk an (resultsF fs)) -> (E -> noEmptyF fs) ->
  parseFields s fs acc gc = Ok (s', (l, g)) ->
  exists hx L' fl, heap s' = heap s ++ hx /\ l = acc ++ fl /\ Inv an s' (L ++ L') /\
    incl (ids s) (ids s') /\
    Forall2 (fun p q => fst p = fst q /\ nth_error (L ++ L') (snd p) = Some (snd q))
            fl (meanFields ids0 an fs) /\
    (forall x j, In (x, j) fl -> nonfwd (heap s') j) /\
    (NoDup (map fst acc) -> NoDup (map fst l)) /\
    (gc = true -> g = true) /\
    (forall x j n, In (x, j) fl -> nth_error (heap s') j = Some n -> ngc n = true ->
       g = true) /\
    (allDecl s' -> E -> legalFields ids0 ds an fs).

Definition PPs (ps : tys) : Prop := forall an s L s' l,
  Inv an s L -> (Q -> resOk an (resultsP ps)) -> (E -> noEmptyP ps) ->
  parseParams s ps = Ok (s', l) ->
  exists hx L', heap s' = heap s ++ hx /\ Inv an s' (L ++ L') /\
    incl (ids s) (ids s') /\
    Forall2 (fun j u => nth_error (L ++ L') j = Some u) l (meanParams ids0 an ps) /\
    (allDecl s' -> E -> legalParams ids0 ds an ps).

Lemma resOk_app : forall an a b, resOk an (a ++ b) -> resOk an a /\ resOk an b.
Proof.
  unfold resOk. intros an a b H. split; intros y Hy; apply H; apply in_or_app; auto.
Qed.

Lemma allDecl_incl : forall s s', incl (ids s) (ids s') -> allDecl s' -> allDecl s.
Proof. unfold allDecl. intros s s' H K d Hd. apply K. apply H. exact Hd. Qed.

Lemma nonfwd_app : forall h r i, nonfwd h i -> nonfwd (h ++ r) i.
Proof. intros h r i (n & A & B). exists n. split; auto. now apply nth_app_l. Qed.

(** Pointers and what else is behind one. *)
Lemma ptr_case : forall e (k : nat -> kind) (sh : forall X, X -> shape X) (te : texpr),
  PF e -> results te = results e -> (E -> noEmpty te -> noEmpty e) ->
  (forall i, kindShape (k i) = Some (sh nat i)) ->
  (forall an, textShape ids0 an te = Some (sh sty (mean an e))) ->
  (forall an, legal an te = behind an e) ->
  (forall (R : nat -> sty -> Prop) i u, R i u -> shapeRel R (sh nat i) (sh sty u)) ->
  (forall i, parts (k i) = [i] /\ byval (k i) = [] /\ isForward (k i) = false) ->
  (forall i ps r hr fs, k i <> KFn ps r hr /\ k i <> KStruct fs) ->
  isName te = false ->
  (forall i, structuredText te = structured (k i)) ->
  (forall s, parseType s te = ptrLike k (orForward s false e (parseType s e))) ->
  PT te.
Proof.
  intros e k sh te HF Hres Hne Hks Hts Hleg Hrel Hk Hk2 Hnm Hst Hparse.
  intros an s L s' i HI Hr He Hp. rewrite Hparse in Hp. unfold ptrLike in Hp.
  destruct (orForward s false e (parseType s e)) as [[s1 j]| |] eqn:Eo;
    cbn [bind] in Hp; try discriminate.
  injection Hp as <- <-. rewrite Hres in Hr.
  destruct (HF an s L s1 j false HI Hr) as (hx & L' & A & B & C & D & F & G); auto.
  set (n := mkNode (k j) (plainGc (k j)) true None).
  assert (Hme : mean an te = SText an te) by (destruct te; try discriminate; reflexivity).
  assert (HI2 : Inv an (mkSt (heap s1 ++ [n]) (ids s1)) ((L ++ L') ++ [SText an te])).
  { destruct (Hk j) as (K1 & K2 & K3).
    apply inv_add; auto.
    2:{ split; cbn [nk n ngc]; auto. rewrite K2. intros j' []. }
    split; [reflexivity|]. cbn [nk n]. rewrite K1, K2.
    split; [|split; [|split; [|split; [|split]]]].
    - exists (sh nat j), (sh sty (mean an e)). split; [apply Hks|]. split.
      + constructor. apply Hts.
      + apply Hrel. exact C.
    - intros j' [<-|[]]. eapply label_lt; eauto.
    - intros j' [].
    - destruct (k j) eqn:Ek; auto. exfalso. destruct (Hk2 j [] 0 false fs). contradiction.
    - auto.
    - intros q ps r hr Hkk. exfalso. destruct (Hk2 j ps r hr []). contradiction. }
  exists (hx ++ [n]), (L' ++ [SText an te]). cbn [heap ids].
  rewrite !app_assoc. split; [now rewrite A|]. split; [exact HI2|]. split.
  { rewrite Hme. rewrite <- (I_len _ _ _ B). apply nth_end. }
  split; auto. destruct (Hk j) as (K1 & K2 & K3). split; [|split].
  - intros _. exists n. split; [apply nth_end|auto].
  - intros Hs. exists n. split; [apply nth_end|]. cbn. rewrite <- Hst. auto.
  - intros Ha _ Hee. rewrite Hleg. apply F; auto.
Qed.

Lemma parse_all : (forall e, PT e) /\ (forall fs, PFs fs) /\ (forall ps, PPs ps).
Proof.
  apply texpr_all.
  - (* a name *)
    intros x an s L s' i HI Hr He Hp. cbn [parseType] in Hp.
    destruct (findId (ids s) x) as [d|] eqn:Ef; [|discriminate]. injection Hp as <- <-.
    destruct (inv_find _ _ _ _ _ HI Ef) as (A & n & B & C & D).
    exists [], []. rewrite !app_nil_r. split; auto. split; auto. split; auto.
    split; [apply incl_refl|]. split; [discriminate|]. split; [discriminate|].
    intros _ (m & M1 & M2) _. rewrite B in M1. injection M1 as <-. cbn. auto.
  - intros e H. eapply (ptr_case e KPtr ShPtr (TPtr e)); auto using PT_PF;
      repeat split; congruence.
  - intros e H. eapply (ptr_case e KWeak ShWeak (TWeak e)); auto using PT_PF;
      repeat split; congruence.
  - (* arrays *)
    intros n e H an s L s' i HI Hr He Hp. cbn [parseType] in Hp.
    destruct (parseType s e) as [[s1 j]| |] eqn:Eo; cbn [bind] in Hp; try discriminate.
    destruct (H an s L s1 j HI Hr) as (hx & L' & A & B & C & D & F & _ & G); auto.
    { intros ee. apply He; auto. }
    destruct (nth_error (heap s1) j) as [b|] eqn:Eb; [|discriminate].
    destruct (Nat.ltb 0 n && isForward (nk b)) eqn:Ec; [discriminate|].
    injection Hp as <- <-. set (m := mkNode (KArr n j) (ngc b) (nal b) None).
    assert (Hnf : 0 < n -> isForward (nk b) = false).
    { intros Hn. apply Nat.ltb_lt in Hn. rewrite Hn in Ec. exact Ec. }
    assert (HI2 : Inv an (mkSt (heap s1 ++ [m]) (ids s1))
                      ((L ++ L') ++ [SText an (TArr n e)])).
    { apply inv_add; auto.
      2:{ split; cbn [nk m ngc]; [discriminate|]. intros k Hk Hh.
          destruct n as [|n']; [contradiction|]. destruct Hk as [<-|[]].
          destruct (I_fin _ _ _ B j b Eb) as [_ K]; [apply Hnf; lia|auto]. }
      split; [reflexivity|]. cbn [nk m parts].
      split; [|split; [|split; [|split; [|split]]]].
      - exists (ShArr _ n j), (ShArr _ n (mean an e)). split; auto. split.
        + constructor. reflexivity.
        + cbn. auto.
      - intros k [<-|[]]. eapply label_lt; eauto.
      - intros k Hk. destruct n as [|n']; [contradiction|]. destruct Hk as [<-|[]].
        exists b. split; [auto|apply Hnf; lia].
      - exact I.
      - intros Hee. cbn. destruct (He Hee) as [Hn _].
        destruct (I_node _ _ _ B j b Eb (Hnf Hn)) as (t & _ & T).
        apply T. exact Hee.
      - intros q ps r hr K. discriminate. }
    exists (hx ++ [m]), (L' ++ [SText an (TArr n e)]). cbn [heap ids].
    rewrite !app_assoc. split; [now rewrite A|]. split; [exact HI2|]. split.
    { rewrite <- (I_len _ _ _ B). apply nth_end. }
    split; auto. split; [|split].
    + intros _. exists m. split; [apply nth_end|auto].
    + intros _. exists m. split; [apply nth_end|auto].
    + intros Ha _ Hee. cbn. destruct (He Hee) as [Hn _]. apply G; auto.
      exists b. auto.
  - intros e H. eapply (ptr_case e KDyn ShDyn (TDyn e)); auto using PT_PF;
      repeat split; congruence.
  - intros e H. eapply (ptr_case e KMap ShMap (TMap e)); auto using PT_PF;
      repeat split; congruence.
  - (* structures *)
    intros fs H an s L s' i HI Hr He Hp. cbn [parseType] in Hp.
    destruct (parseFields s fs [] false) as [[s1 [l g]]| |] eqn:Eo; cbn [bind] in Hp;
      try discriminate.
    injection Hp as <- <-.
    destruct (H an s L s1 [] false l g HI Hr) as
      (hx & L' & fl & A & B & C & D & F & G & K & M & N & O); auto.
    cbn [app] in B. subst l. set (m := mkNode (KStruct fl) g true None).
    assert (HI2 : Inv an (mkSt (heap s1 ++ [m]) (ids s1))
                      ((L ++ L') ++ [SText an (TStruct fs)])).
    { apply inv_add; auto.
      2:{ split; cbn [nk m ngc byval]; [discriminate|]. intros k Hk Hh.
          apply in_map_iff in Hk. destruct Hk as ((x & k') & <- & Hk).
          destruct (G _ _ Hk) as (b & B1 & B2). eapply N; eauto.
          eapply I_fin; eauto. }
      split; [reflexivity|]. cbn [nk m parts byval].
      split; [|split; [|split; [|split; [|split]]]].
      - exists (ShStruct _ fl), (ShStruct _ (meanFields ids0 an fs)). split; auto. split.
        + constructor. reflexivity.
        + exact F.
      - intros k Hk. apply in_map_iff in Hk. destruct Hk as ((x & k') & <- & Hk).
        destruct (G _ _ Hk) as (b & B1 & _). eapply nth_lt; eauto.
      - intros k Hk. apply in_map_iff in Hk. destruct Hk as ((x & k') & <- & Hk).
        eapply G; eauto.
      - apply K. constructor.
      - auto.
      - intros q ps r hr X. discriminate. }
    exists (hx ++ [m]), (L' ++ [SText an (TStruct fs)]). cbn [heap ids].
    rewrite !app_assoc. split; [now rewrite A|]. split; [exact HI2|]. split.
    { rewrite <- (I_len _ _ _ C). apply nth_end. }
    split; auto. split; [|split].
    + intros _. exists m. split; [apply nth_end|auto].
    + intros _. exists m. split; [apply nth_end|auto].
    + intros Ha _ Hee. cbn. split; [apply O; auto|].
      assert (Em : map fst (meanFields ids0 an fs) = map fst fl).
      { clear - F. induction F as [|p q f g [P _] F IH]; cbn; congruence. }
      rewrite Em. apply K. constructor.
  - (* functions *)
    intros ps H r Hr0 an s L s' i HI Hr He Hp. cbn [parseType] in Hp.
    destruct (parseParams s ps) as [[s1 l]| |] eqn:Ep; cbn [bind] in Hp; try discriminate.
    destruct (orForward s1 true r (parseType s1 r)) as [[s2 j]| |] eqn:Eo;
      cbn [bind] in Hp; try discriminate.
    destruct (nth_error (heap s2) j) as [b|] eqn:Eb; [|discriminate].
    injection Hp as <- <-.
    assert (HR : Q -> resOk an (resultsP ps) /\ resOk an (resName r)).
    { intros q. apply resOk_app. exact (Hr q). }
    destruct (H an s L s1 l HI) as (hx & L1 & A & B & C & D & F); auto.
    { intros q. apply HR. exact q. }
    { intros ee. apply He. exact ee. }
    destruct (PT_PF r Hr0 an s1 (L ++ L1) s2 j true B) as
      (hx2 & L2 & A2 & B2 & C2 & D2 & F2 & _); auto.
    { intros q. apply HR. exact q. }
    { intros ee. apply He. exact ee. }
    set (k := KFn l j (structured (nk b) || isForward (nk b))) in *.
    set (m := mkNode k (plainGc k) true None).
    assert (HI2 : Inv an (mkSt (heap s2 ++ [m]) (ids s2))
                      (((L ++ L1) ++ L2) ++ [SText an (TFn ps r)])).
    { apply inv_add; auto.
      2:{ split; cbn [nk m k ngc byval]; [auto|]. intros q []. }
      split; [reflexivity|]. cbn [nk m k parts byval].
      assert (HF2 : Forall2 (fun i u => nth_error ((L ++ L1) ++ L2) i = Some u) l
                            (meanParams ids0 an ps)).
      { clear - D. induction D; constructor; auto. now apply nth_app_l. }
      split; [|split; [|split; [|split; [|split]]]].
      - exists (ShFn _ l j), (ShFn _ (meanParams ids0 an ps) (mean an r)). split; auto.
        split.
        + constructor. reflexivity.
        + cbn. split; auto.
      - intros q [<-|Hq]; [eapply label_lt; eauto|].
        assert (Hl : exists u, nth_error ((L ++ L1) ++ L2) q = Some u).
        { clear - HF2 Hq. induction HF2 as [|x y l' l'' X HF IH]; [contradiction|].
          destruct Hq as [<-|Hq]; eauto. }
        destruct Hl as (u & Hl). eapply label_lt; eauto.
      - intros q [].
      - exact I.
      - auto.
      - intros q ps' r' hr X. injection X as <- <- <-. exists b. split; auto.
        destruct (isForward (nk b)) eqn:Ef; [|now rewrite orb_false_r].
        split; [now rewrite orb_true_r|].
        destruct (nk b) as [rbs| | | | | | | |] eqn:Ek; try discriminate.
        destruct (I_fwd _ _ _ B2 j b rbs Eb Ek) as (y & Y1 & Y2). exists y. split; auto.
        (* the result is a name, not known here *)
        destruct (HR q) as [_ HR2]. rewrite C2 in Y1. injection Y1 as Y1.
        destruct r as [x|e'|e'|n' e'|e'|e'|fs'|ps' r']; try discriminate.
        cbn in Y1. unfold refers in Y1. destruct (existsb (Nat.eqb x) an) eqn:Ea.
        + injection Y1 as <-. exfalso. apply existsb_in in Ea.
          cbn [orForward] in Eo. destruct (findId (ids s1) x) as [d|] eqn:Ed.
          * cbn [parseType] in Eo. rewrite Ed in Eo. injection Eo as <- <-.
            destruct (inv_find _ _ _ _ _ B Ed) as (_ & n' & N1 & _ & N2).
            rewrite Eb in N1. injection N1 as <-.
            specialize (N2 (or_intror Ea)). rewrite Ek in N2. discriminate.
          * destruct B as [_ _ (ex & X1 & _ & X3 & _) _ _ _].
            rewrite X1, findId_app in Ed; destruct (findId ex x) eqn:Ex; [discriminate|].
            apply X3 in Ea; apply findId_none in Ex; contradiction.
        + destruct (findId ids0 x) as [d|] eqn:Ed; [discriminate|]. injection Y1 as <-.
          apply HR2; [cbn; auto| |].
          * intros K. apply existsb_in in K. congruence.
          * unfold TypeDeclSpec.outer. congruence. }
    exists ((hx ++ hx2) ++ [m]), ((L1 ++ L2) ++ [SText an (TFn ps r)]). cbn [heap ids].
    rewrite !app_assoc. split; [now rewrite A2, A|]. split; [exact HI2|]. split.
    { rewrite <- (I_len _ _ _ B2). apply nth_end. }
    split; [eapply incl_tran; eauto|]. split; [|split].
    + intros _. exists m. split; [apply nth_end|auto].
    + intros _. exists m. split; [apply nth_end|auto].
    + intros Ha _ Hee. cbn [TypeDeclSpec.legal]. split.
      * apply F; auto. eapply allDecl_incl; eauto.
      * apply F2; auto.
  - (* no more fields *)
    intros an s L s' acc gc l g HI _ _ Hp. cbn in Hp. injection Hp as <- <- <-.
    exists [], [], []. rewrite !app_nil_r. split; auto. split; auto. split; auto.
    split; [apply incl_refl|]. split; [constructor|]. split; [intros ? ? []|].
    split; auto. split; auto. split; [intros ? ? ? []|]. intros _ _. exact I.
  - (* a field *)
    intros x e He0 fs H an s L s' acc gc l g HI Hr He Hp. cbn [parseFields] in Hp.
    destruct (orForward s false e (parseType s e)) as [[s1 j]| |] eqn:Eo;
      cbn [bind] in Hp; try discriminate.
    destruct (nth_error (heap s1) j) as [b|] eqn:Eb; [|discriminate].
    destruct (existsb (fun p => Nat.eqb (fst p) x) acc) eqn:Ed; [discriminate|].
    destruct (isForward (nk b)) eqn:Ef; [discriminate|].
    destruct (negb (nal b)) eqn:Ea; [discriminate|].
    assert (HR : Q -> resOk an (results e) /\ resOk an (resultsF fs)).
    { intros q. apply resOk_app. exact (Hr q). }
    destruct (PT_PF e He0 an s L s1 j false HI) as (hx & L1 & A & B & C & D & F & G); auto.
    { intros q. apply HR. exact q. }
    { intros ee. apply He. exact ee. }
    destruct (H an s1 (L ++ L1) s' (acc ++ [(x, j)]) (gc || ngc b) l g B) as
      (hx2 & L2 & fl & A2 & B2 & C2 & D2 & F2 & G2 & K2 & M2 & N2 & O2);
      [intros q; apply HR; exact q|intros ee; apply He; exact ee|exact Hp|].
    exists (hx ++ hx2), (L1 ++ L2), ((x, j) :: fl). rewrite !app_assoc.
    split; [now rewrite A2, A|]. split; [rewrite B2, <- app_assoc; reflexivity|].
    split; auto. split; [eapply incl_tran; eauto|]. split; [|split; [|split; [|split; [|split]]]].
    + cbn. constructor; auto. cbn. split; auto. now apply nth_app_l.
    + intros y k [Hk|Hk]; [|eauto]. injection Hk as <- <-. rewrite A2.
      apply nonfwd_app. exists b. auto.
    + intros Hn. apply K2. rewrite map_app. cbn.
      apply NoDup_app_single; auto. intros K. apply in_map_iff in K.
      destruct K as (p & P1 & P2). apply eq_true_false_abs with (2 := Ed).
      apply existsb_exists. exists p. split; auto. now apply Nat.eqb_eq.
    + intros Hg. apply M2. now rewrite Hg.
    + intros y k n [Hk|Hk] Hn Hg; [|eauto]. injection Hk as <- <-.
      assert (Hb : nth_error (heap s') j = Some b) by (rewrite A2; now apply nth_app_l).
      rewrite Hb in Hn. injection Hn as <-. apply M2. rewrite Hg. apply orb_true_r.
    + intros Ha Hee. cbn. split.
      * apply G; auto; [eapply allDecl_incl; eauto|]. exists b. auto.
      * apply O2; auto.
  - (* no more parameters *)
    intros an s L s' l HI _ _ Hp. cbn in Hp. injection Hp as <- <-.
    exists [], []. rewrite !app_nil_r. split; auto. split; auto.
    split; [apply incl_refl|]. split; [constructor|]. intros _ _. exact I.
  - (* a parameter *)
    intros e He0 ps H an s L s' l HI Hr He Hp. cbn [parseParams] in Hp.
    destruct (orForward s false e (parseType s e)) as [[s1 j]| |] eqn:Eo;
      cbn [bind] in Hp; try discriminate.
    destruct (parseParams s1 ps) as [[s2 l2]| |] eqn:Ep; cbn [bind] in Hp;
      try discriminate.
    injection Hp as <- <-.
    assert (HR : Q -> resOk an (results e) /\ resOk an (resultsP ps)).
    { intros q. apply resOk_app. exact (Hr q). }
    destruct (PT_PF e He0 an s L s1 j false HI) as (hx & L1 & A & B & C & D & F & G); auto.
    { intros q. apply HR. exact q. }
    { intros ee. apply He. exact ee. }
    destruct (H an s1 (L ++ L1) s2 l2 B) as (hx2 & L2 & A2 & B2 & C2 & D2 & F2); auto.
    { intros q. apply HR. exact q. }
    { intros ee. apply He. exact ee. }
    exists (hx ++ hx2), (L1 ++ L2). rewrite !app_assoc.
    split; [now rewrite A2, A|]. split; auto. split; [eapply incl_tran; eauto|]. split.
    + cbn. constructor; auto. now apply nth_app_l.
    + intros Ha Hee. cbn. split; [|apply F2; auto].
      apply F; auto. eapply allDecl_incl; eauto.
Qed.

(** * Items *)
Lemma setNode_len : forall h i n, List.length (setNode h i n) = List.length h.
Proof. induction h; destruct i; cbn; auto. Qed.

Lemma setNode_same : forall h i n, i < List.length h ->
  nth_error (setNode h i n) i = Some n.
Proof. induction h; destruct i; cbn; intros; auto; try lia. apply IHh. lia. Qed.

Lemma setNode_other : forall h i n j, i <> j -> nth_error (setNode h i n) j = nth_error h j.
Proof. induction h; destruct i, j; cbn; intros; auto; try lia. Qed.

Lemma setNode_inv : forall h i n j m, nth_error (setNode h i n) j = Some m ->
  (j = i /\ m = n) \/ (j <> i /\ nth_error h j = Some m).
Proof.
  intros h i n j m H. destruct (Nat.eq_dec j i) as [->|Hj].
  - left. split; auto. rewrite setNode_same in H; [congruence|].
    rewrite <- (setNode_len h i n). eapply nth_lt; eauto.
  - right. split; auto. rewrite setNode_other in H; auto.
Qed.

Lemma NoDup_names : forall (l : list ident) d d', NoDup (map iname l) -> In d l ->
  In d' l -> iname d = iname d' -> d = d'.
Proof.
  induction l as [|c l IH]; intros d d' H K J Hn; [contradiction|].
  cbn in H. inversion H; subst. destruct K as [<-|K], J as [<-|J]; auto.
  - exfalso. apply H2. rewrite Hn. now apply in_map.
  - exfalso. apply H2. rewrite <- Hn. now apply in_map.
Qed.

(** A new identifier. *)
Lemma inv_new : forall an s L x t n,
  Inv an s L -> nth_error L t = Some (SDecl x) -> nth_error (heap s) t = Some n ->
  isForward (nk n) = false ->
  (forall d, findId (ids s) x = Some d -> icur d = false) ->
  Inv (an ++ [x]) (mkSt (heap s) (mkIdent x t true :: ids s)) L /\
  ~ In x an /\ (forall d, findId ids0 x = Some d -> icur d = false).
Proof.
  intros an s L x t n [A B (ex & C1 & C2 & C3 & C4 & C5) F G N] Ht Hn Hf Hc.
  assert (Hx : findId ex x = None).
  { rewrite C1, findId_app in Hc. destruct (findId ex x) as [d|] eqn:Ex; auto.
    specialize (Hc d eq_refl). apply findId_in in Ex. destruct Ex as [Ex _].
    apply C4 in Ex. destruct Ex. congruence. }
  assert (Hx2 : ~ In x (map iname ex)) by now apply findId_none.
  assert (Hx3 : ~ In x an) by (intros K; apply C3 in K; contradiction).
  split; [|split; auto].
  2:{ intros d Hd. apply Hc. rewrite C1, findId_app, Hx. exact Hd. }
  constructor; cbn [heap ids]; auto.
  exists (mkIdent x t true :: ex). rewrite C1. split; [reflexivity|].
  split; [cbn; constructor; auto|]. split; [|split].
  - intros y Hy. apply in_app_or in Hy. cbn. destruct Hy as [Hy|[<-|[]]]; auto.
  - intros d [<-|Hd]; cbn [iname itype icur].
    + split; auto. split; auto. exists n. split; auto. left. split; auto.
      apply in_or_app. right. now left.
    + destruct (C4 d Hd) as (D1 & D2 & m & D3 & D4). split; auto. split; auto.
      exists m. split; auto. destruct D4 as [[D4 D5]|(D4 & D5 & D6)].
      * left. split; auto. apply in_or_app. auto.
      * right. split; auto. intros K. apply in_app_or in K.
        destruct K as [K|[K|[]]]; [contradiction|]. apply Hx2. rewrite K. now apply in_map.
  - intros i m Hi Hm. destruct (C5 i m Hi Hm) as (d & D1 & D2). exists d. split; auto.
    now right.
Qed.

(** A forward type is resolved. *)
Lemma inv_resolve : forall an s L x t n d f,
  Inv an s L -> nth_error L t = Some (SDecl x) -> nth_error (heap s) t = Some n ->
  isForward (nk n) = false -> (structuredName x -> structured (nk n) = true) ->
  findId (ids s) x = Some d -> nth_error (heap s) (itype d) = Some f ->
  isForward (nk f) = true ->
  Inv (an ++ [x]) (mkSt (setNode (heap s) (itype d) n) (ids s)) L /\
  agree (heap s) (setNode (heap s) (itype d) n) /\
  ~ In x an /\ findId ids0 x = None.
Proof.
  intros an s L x t n d f HI Ht Hn Hf Hst Hd Hdf Hff.
  pose proof HI as [A B (ex & C1 & C2 & C3 & C4 & C5) F G N].
  assert (Hagr : agree (heap s) (setNode (heap s) (itype d) n)).
  { intros i m Hi Hm. destruct (Nat.eq_dec i (itype d)) as [->|K]; [congruence|].
    rewrite setNode_other; auto. }
  assert (Hlt : itype d < List.length (heap s)) by (eapply nth_lt; eauto).
  assert (Hold : forall i m, nth_error h0 i = Some m -> isForward (nk m) = false).
  { intros i m Hi. destruct (Hsound0 _ _ Hi) as [Hfi _]. apply fin_inv in Hfi.
    destruct Hfi as (m' & M1 & M2 & _). congruence. }
  assert (Hdex : In d ex /\ iname d = x).
  { rewrite C1, findId_app in Hd. destruct (findId ex x) as [d'|] eqn:Ex.
    - injection Hd as ->. now apply findId_in.
    - exfalso. apply findId_in in Hd. destruct Hd as [Hd _]. specialize (Hknown0 d Hd).
      destruct (nth_error h0 (itype d)) as [m|] eqn:Em.
      + destruct (B _ _ Em) as [B1 _]. specialize (Hold _ _ Em). congruence.
      + apply nth_error_None in Em. lia. }
  destruct Hdex as [Hdex Hdx].
  destruct (C4 d Hdex) as (D1 & D2 & m & D3 & D4). rewrite Hdx in D2, D4.
  rewrite Hdf in D3. injection D3 as <-.
  destruct D4 as [[_ D4]|(D4 & _ & D5)]; [congruence|].
  split; [|split; [auto|split; auto]].
  destruct (N t n Hn Hf) as (u & U1 & U2). rewrite Ht in U1. injection U1 as <-.
  (* other types *)
  assert (Hok : forall i i' m u, nodeOk (heap s) L i m u ->
            nodeOk (setNode (heap s) (itype d) n) L i' m u).
  { intros i i' m u (O1 & O2 & O3 & O4 & O5 & O6 & O7).
    split; [auto|]. split; [auto|]. split; [intros j Hj; rewrite setNode_len; auto|].
    split; [|split; [auto|split; [auto|]]].
    - intros j Hj. destruct (O4 j Hj) as (b & B1 & B2). exists b. split; auto.
    - intros q ps r hr Hk. destruct (O7 q ps r hr Hk) as (b & B1 & B2).
      destruct (Nat.eq_dec r (itype d)) as [->|Hr].
      + exists n. split; [now apply setNode_same|]. rewrite Hf.
        rewrite Hdf in B1. injection B1 as <-. rewrite Hff in B2.
        destruct B2 as (-> & y & Y1 & Y2). rewrite D2 in Y1. injection Y1 as <-.
        symmetry. auto.
      + exists b. split; auto. rewrite setNode_other; auto. }
  constructor; cbn [heap ids].
  - now rewrite setNode_len.
  - intros i b Hi. destruct (B i b Hi) as [B1 B2]. split; auto. apply Hagr; auto.
    eapply Hold; eauto.
  - exists ex. split; auto. split; auto. split; [|split].
    + intros y Hy. apply in_app_or in Hy. destruct Hy as [Hy|[<-|[]]]; auto.
      rewrite <- Hdx. now apply in_map.
    + intros d' Hd'. destruct (C4 d' Hd') as (E1 & E2 & b & E3 & E4). split; auto.
      split; auto. destruct (Nat.eq_dec (iname d') x) as [Hy|Hy].
      * assert (d' = d) as -> by (eapply NoDup_names; eauto; congruence).
        exists n. split; [now apply setNode_same|]. left. split; auto.
        rewrite Hdx. apply in_or_app. right. now left.
      * assert (Hne : itype d <> itype d').
        { intros K. rewrite <- K, D2 in E2. injection E2 as E2. congruence. }
        exists b. split; [rewrite setNode_other; auto|].
        destruct E4 as [[E4 E5]|(E4 & E5 & E6)].
        -- left. split; auto. apply in_or_app. auto.
        -- right. split; auto. intros K. apply in_app_or in K.
           destruct K as [K|[K|[]]]; [contradiction|congruence].
    + intros i b Hi Hb. apply setNode_inv in Hi. destruct Hi as [[-> ->]|[Hi1 Hi2]].
      * congruence.
      * eauto.
  - intros i b rbs Hi Hb. apply setNode_inv in Hi. destruct Hi as [[-> ->]|[Hi1 Hi2]].
    + rewrite Hb in Hf. discriminate.
    + eauto.
  - intros i b Hi Hb. apply setNode_inv in Hi. destruct Hi as [[-> ->]|[Hi1 Hi2]].
    + destruct (G t n Hn Hf) as [G1 G2]. apply fin_inv in G1.
      destruct G1 as (n' & N1 & _ & N2). rewrite Hn in N1. injection N1 as <-. split.
      * eapply fin_intro; [now apply setNode_same|auto|]. intros j Hj.
        eapply finite_agree; eauto.
      * intros K. apply G2. eapply holds_intro; eauto.
        destruct (holds_inv _ _ _ K (setNode_same _ _ _ Hlt)) as [K1|(j & K1 & K2)]; auto.
        right. exists j. split; auto. eapply holds_agree; eauto.
    + destruct (G i b Hi2 Hb) as [G1 G2]. split; [eapply finite_agree; eauto|].
      intros K. apply G2. eapply holds_agree; eauto.
  - intros i b Hi Hb. apply setNode_inv in Hi. destruct Hi as [[-> ->]|[Hi1 Hi2]].
    + exists (SDecl x). split; auto. eapply Hok; eauto.
    + destruct (N i b Hi2 Hb) as (u & T1 & T2). exists u. split; auto. eapply Hok; eauto.
Qed.

Lemma agree_trans : forall a b c, agree a b -> agree b c -> agree a c.
Proof. intros a b c H K i n Hi Hn. apply K; auto. Qed.

(** What adding a copy of the type achieves. *)
Lemma inv_copy : forall a x e b s L i n,
  ds = a ++ (x, e) :: b -> Inv (map fst a) s L ->
  nth_error L i = Some (mean (map fst a) e) ->
  nth_error (heap s) i = Some n -> isForward (nk n) = false ->
  Inv (map fst a)
      (mkSt (heap s ++ [mkNode (nk n) (ngc n) (nal n) (Some x)]) (ids s)) (L ++ [SDecl x]).
Proof.
  intros a x e b s L i n Hds HI Hl Hn Hf.
  destruct (I_node _ _ _ HI i n Hn Hf) as (t & T1 & T2). rewrite Hl in T1.
  injection T1 as <-.
  destruct T2 as (O1 & (sh & sh' & P1 & P2 & P3) & O3 & O4 & O5 & O6 & O7).
  apply inv_add; auto.
  - split; [reflexivity|]. cbn [nk nal].
    split; [|split; [auto|split; [auto|split; [auto|split; [auto|auto]]]]].
    exists sh, sh'. split; auto. split; auto. eapply U_decl; eauto.
  - destruct (I_fin _ _ _ HI i n Hn Hf) as [_ G2]. split; cbn [nk ngc].
    + intros K. apply G2. eapply holds_intro; eauto.
    + intros j Hj K. apply G2. eapply holds_intro; eauto.
Qed.

Lemma parse_item : forall a x e b s L s',
  ds = a ++ (x, e) :: b -> Inv (map fst a) s L -> plainAliases ids0 ds ->
  parseItem s x e = Ok s' ->
  exists L', Inv (map fst a ++ [x]) s' L' /\ agree (heap s) (heap s') /\
    incl (ids s) (ids s') /\ (allDecl s' -> E -> legal (map fst a) e) /\
    ~ In x (map fst a) /\ (forall d, findId ids0 x = Some d -> icur d = false).
Proof.
  intros a x e b s L s' Hds HI Hpa Hp. unfold parseItem in Hp.
  destruct (parseType s e) as [[s1 i]| |] eqn:Ep; cbn [bind] in Hp; try discriminate.
  assert (Hin : In (x, e) ds) by (rewrite Hds; apply in_or_app; right; now left).
  destruct (proj1 parse_all e (map fst a) s L s1 i HI) as
    (hx & L1 & A & B & C & D & F & G & H); auto.
  { intros q y Hy Ha Ho e' He'. eapply (proj2 q); eauto. }
  { intros ee. eapply (proj2 ee); eauto. }
  destruct (nth_error (heap s1) i) as [n|] eqn:En; [|discriminate].
  assert (Hf : isForward (nk n) = false).
  { destruct (isName e) eqn:Ee.
    - destruct e as [y| | | | | | |]; try discriminate. cbn [parseType] in Ep.
      destruct (findId (ids s) y) as [d|] eqn:Ed; [|discriminate].
      injection Ep as <- <-. destruct (inv_find _ _ _ _ _ HI Ed) as (_ & m & M1 & _ & M2).
      rewrite En in M1. injection M1 as <-. apply M2. eapply Hpa; eauto.
    - destruct (F eq_refl) as (m & M1 & M2). congruence. }
  cbn [typeAdd] in Hp. unfold identAddType in Hp. cbn [heap ids] in Hp.
  rewrite nth_end in Hp. cbn [nk ngc nal] in Hp.
  pose proof (inv_copy _ _ _ _ _ _ _ _ Hds B C En Hf) as HI2.
  set (n' := mkNode (nk n) (ngc n) (nal n) (Some x)) in *.
  assert (Hl : nth_error ((L ++ L1) ++ [SDecl x]) (List.length (heap s1)) = Some (SDecl x)).
  { rewrite <- (I_len _ _ _ B). apply nth_end. }
  assert (Hagr : agree (heap s) (heap s1 ++ [n'])).
  { rewrite A. eapply agree_trans; apply agree_app. }
  assert (Hleg : allDecl s1 -> E -> legal (map fst a) e).
  { intros Ha Hee. apply H; auto. exists n. auto. }
  assert (Hnew : (forall d, findId (ids s1) x = Some d -> icur d = false) ->
    s' = mkSt (heap s1 ++ [n']) (mkIdent x (List.length (heap s1)) true :: ids s1) ->
    exists L', Inv (map fst a ++ [x]) s' L' /\ agree (heap s) (heap s') /\
      incl (ids s) (ids s') /\ (allDecl s' -> E -> legal (map fst a) e) /\
      ~ In x (map fst a) /\ (forall d, findId ids0 x = Some d -> icur d = false)).
  { intros Hc ->.
    destruct (inv_new _ _ _ x (List.length (heap s1)) n' HI2 Hl) as (K1 & K2 & K3); auto.
    { apply nth_end. }
    cbn [heap ids] in K1. exists ((L ++ L1) ++ [SDecl x]). split; [exact K1|].
    cbn [heap ids]. split; auto. split; [intros d Hd; right; auto|]. split; auto.
    intros Ha. apply Hleg. intros d Hd. apply Ha. now right. }
  destruct (findId (ids s1) x) as [d|] eqn:Ed.
  - destruct (icur d) eqn:Ei.
    + destruct (nth_error (heap s1 ++ [n']) (itype d)) as [f|] eqn:Ef; [|discriminate].
      destruct (nk f) as [rbs| | | | | | | |] eqn:Ekf; try discriminate.
      rewrite Hf in Hp.
      destruct (rbs && negb (structured (nk n))) eqn:Er; [discriminate|].
      injection Hp as <-.
      destruct (inv_resolve _ _ _ x (List.length (heap s1)) n' d f HI2 Hl) as
        (K1 & K2 & K3 & K4); auto.
      { apply nth_end. }
      { intros Hs. destruct (G (Hs e Hin)) as (m & M1 & M2). cbn. congruence. }
      { now rewrite Ekf. }
      exists ((L ++ L1) ++ [SDecl x]). split; [exact K1|]. cbn [heap ids].
      split; [eapply agree_trans; eauto|]. split; auto. split; auto. split; auto.
      intros d' Hd'. congruence.
    + injection Hp as <-. apply Hnew; auto. intros d' Hd'. congruence.
  - injection Hp as <-. apply Hnew; auto. discriminate.
Qed.

Lemma app_eq_len : forall A (a b c d : list A), a ++ b = c ++ d ->
  List.length a = List.length c -> a = c /\ b = d.
Proof.
  induction a as [|x a IH]; destruct c as [|y c]; cbn; intros d H K; try discriminate; auto.
  injection H as -> H. destruct (IH b c d H) as [-> ->]; auto.
Qed.

Lemma parse_items : forall b a s L s',
  ds = a ++ b -> Inv (map fst a) s L -> plainAliases ids0 ds ->
  parseItems s b = Ok s' ->
  exists L', Inv (map fst ds) s' L' /\ agree (heap s) (heap s') /\
    incl (ids s) (ids s') /\
    (allDecl s' -> E -> forall a' x e b', ds = a' ++ (x, e) :: b' ->
       List.length a <= List.length a' -> legal (map fst a') e) /\
    (NoDup (map fst a) -> NoDup (map fst ds)) /\
    (forall x d, In x (map fst b) -> findId ids0 x = Some d -> icur d = false).
Proof.
  induction b as [|[x e] b IH]; intros a s L s' Hds HI Hpa Hp.
  - cbn in Hp. injection Hp as <-. rewrite app_nil_r in Hds. exists L. rewrite Hds.
    split; auto. split; [intros i n; auto|]. split; [apply incl_refl|].
    split; [|split; [auto|intros x d []]].
    intros _ _ a' x e b' K Hl. exfalso. apply (f_equal (@List.length _)) in K.
    rewrite app_length in K. cbn in K. lia.
  - cbn [parseItems] in Hp. destruct (parseItem s x e) as [s1| |] eqn:E1; cbn [bind] in Hp;
      try discriminate.
    destruct (parse_item _ _ _ _ _ _ _ Hds HI Hpa E1) as (L1 & A & B & C & D & F & G).
    assert (Hds2 : ds = (a ++ [(x, e)]) ++ b) by (rewrite <- app_assoc; exact Hds).
    assert (Hm : map fst (a ++ [(x, e)]) = map fst a ++ [x]) by now rewrite map_app.
    rewrite <- Hm in A.
    destruct (IH _ _ _ _ Hds2 A Hpa Hp) as (L2 & A2 & B2 & C2 & D2 & F2 & G2).
    exists L2. split; auto. split; [eapply agree_trans; eauto|].
    split; [eapply incl_tran; eauto|]. split; [|split].
    + intros Ha Hee a' y e' b' K Hl. destruct (Nat.eq_dec (List.length a) (List.length a')).
      * rewrite Hds in K. destruct (app_eq_len _ _ _ _ _ K) as [<- K2]; auto.
        injection K2 as <- <- <-. apply D; auto. eapply allDecl_incl; eauto.
      * apply (D2 Ha Hee a' y e' b' K). rewrite app_length. cbn. lia.
    + intros Hn. apply F2. rewrite Hm. now apply NoDup_app_single.
    + intros y d [<-|Hy] Hd; eauto.
Qed.

(** * The beginning *)
Lemma nth_map_seq : forall n i, i < n -> nth_error (map SOld (seq 0 n)) i = Some (SOld i).
Proof.
  intros n i H. rewrite nth_error_map.
  rewrite (nth_error_nth' _ 0) by (now rewrite seq_length).
  rewrite seq_nth by auto. reflexivity.
Qed.

Lemma shapeRel_map : forall (R : nat -> sty -> Prop) k s,
  kindShape k = Some s -> (forall j, In j (parts k) -> R j (SOld j)) ->
  shapeRel R s (shapeMap SOld s).
Proof.
  intros R k s H K. destruct k; cbn in H; try discriminate; injection H as <-; cbn in *;
    auto.
  - induction fs as [|[x j] fs IH]; cbn in *; constructor; cbn; auto.
  - split; [|auto]. assert (K' : forall j, In j ps -> R j (SOld j)) by auto. clear K.
    induction ps; cbn in *; constructor; auto.
Qed.

Lemma inv_init : Inv [] (mkSt h0 ids0) (map SOld (seq 0 (List.length h0))).
Proof.
  assert (Hnf : forall i n, nth_error h0 i = Some n -> isForward (nk n) = false).
  { intros i m Hi. destruct (Hsound0 _ _ Hi) as [Hfi _]. apply fin_inv in Hfi.
    destruct Hfi as (m' & M1 & M2 & _). congruence. }
  constructor; cbn [heap ids].
  - now rewrite map_length, seq_length.
  - intros i n Hi. split; auto. apply nth_map_seq. eapply nth_lt; eauto.
  - exists []. split; auto. split; [constructor|]. split; [intros x []|].
    split; [intros d []|]. intros i n Hi Hn. rewrite (Hnf _ _ Hi) in Hn. discriminate.
  - intros i n rbs Hi Hn. specialize (Hnf _ _ Hi). rewrite Hn in Hnf. discriminate.
  - intros i n Hi Hn. destruct (Hsound0 _ _ Hi) as (A & B & _). auto.
  - intros i n Hi Hn. exists (SOld i). split; [apply nth_map_seq; eapply nth_lt; eauto|].
    destruct (Hsound0 _ _ Hi) as (A & B & C & D).
    split; [cbn; now rewrite Hi|]. split; [|split; [auto|split; [|split; [auto|split]]]].
    + destruct (kindShape (nk n)) as [s|] eqn:Es.
      * exists s, (shapeMap SOld s). split; auto. split; [econstructor; eauto|].
        eapply shapeRel_map; eauto. intros j Hj. apply nth_map_seq. auto.
      * destruct (nk n); discriminate.
    + intros j Hj. apply fin_inv in A. destruct A as (m & M1 & _ & M2).
      rewrite Hi in M1. injection M1 as <-. specialize (M2 j Hj). apply fin_inv in M2.
      destruct M2 as (k & K1 & K2 & _). exists k. auto.
    + intros [Hee _]. apply Hee. eapply nth_error_In; eauto.
    + intros [q _] ps r hr Hk. assert (Hr : r < List.length h0).
      { apply C. rewrite Hk. now left. }
      destruct (nth_error h0 r) as [m|] eqn:Em; [|apply nth_error_None in Em; lia].
      exists m. split; auto. rewrite (Hnf _ _ Em). exact (q i n ps r hr m Hi Hk Em).
Qed.

(** * Accepted declarations *)
Lemma decl_ok : forall s', plainAliases ids0 ds ->
  parseTypeDecl (mkSt h0 ids0) ds = Ok s' ->
  (forall x, declared x -> exists d, findId (ids s') x = Some d /\
     denotes h0 ids0 ds (heap s') (itype d) (SDecl x)) /\
  NoDup (map fst ds) /\
  (Q -> resultsPassed (heap s')) /\ (E -> legalDecl ids0 ds).
Proof.
  intros s' Hpa Hp. unfold parseTypeDecl in Hp.
  destruct (parseItems (mkSt h0 ids0) ds) as [s1| |] eqn:Ei; cbn [bind] in Hp;
    try discriminate.
  destruct (existsb (fun n => isForward (nk n)) (heap s1)) eqn:Ef; [discriminate|].
  injection Hp as <-.
  destruct (parse_items ds [] _ _ _ eq_refl inv_init Hpa Ei) as
    (L & HI & B & C & D & F & G).
  assert (Hnf : forall i n, nth_error (heap s1) i = Some n -> isForward (nk n) = false).
  { intros i n Hi. destruct (isForward (nk n)) eqn:K; auto. exfalso.
    apply eq_true_false_abs with (2 := Ef). apply existsb_exists. exists n.
    split; auto. eapply nth_error_In; eauto. }
  pose proof HI as [_ _ (ex & C1 & C2 & C3 & C4 & C5) _ _ N].
  split; [|split; [apply F; constructor|split]].
  - intros x Hx. apply C3 in Hx.
    destruct (findId ex x) as [d|] eqn:Ed; [|apply findId_none in Ed; contradiction].
    exists d. split; [rewrite C1, findId_app, Ed; auto|].
    exists (fun j u => nth_error L j = Some u). split.
    + apply findId_in in Ed. destruct Ed as [Ed <-]. apply C4. exact Ed.
    + intros j u Hj.
      destruct (nth_error (heap s1) j) as [n|] eqn:Ej.
      2:{ apply nth_error_None in Ej. pose proof (label_lt _ _ _ _ _ HI Hj). lia. }
      destruct (N j n Ej (Hnf _ _ Ej)) as (t & T1 & O1 & (sh & sh' & P1 & P2 & P3) & _).
      rewrite Hj in T1. injection T1 as <-. exists n, sh, sh'. auto.
  - intros q i n ps r hr m Hi Hk Hm.
    destruct (N i n Hi (Hnf _ _ Hi)) as (t & T1 & _ & _ & _ & _ & _ & _ & O).
    destruct (O q ps r hr Hk) as (m' & M1 & M2). rewrite Hm in M1. injection M1 as <-.
    rewrite (Hnf _ _ Hm) in M2. exact M2.
  - intros Hee. split; [apply F; constructor|]. split.
    + intros x d Hx Hd. eapply G; eauto.
    + intros a x e b Hds. eapply D; eauto; [|cbn; lia].
      intros d Hd. rewrite C1 in Hd. apply in_app_or in Hd. destruct Hd as [Hd|Hd].
      * right. destruct (C4 d Hd) as (_ & _ & n & E3 & [[E4 _]|(_ & E5 & _)]); auto.
        rewrite (Hnf _ _ E3) in E5. discriminate.
      * left. unfold TypeDeclSpec.outer. intros K. apply findId_none in K. apply K.
        now apply in_map.
Qed.

(** A type unfolds in one way only. *)
Lemma split_unique : forall (l : list (nat * texpr)) a x e b a' e' b',
  NoDup (map fst l) -> l = a ++ (x, e) :: b -> l = a' ++ (x, e') :: b' ->
  a = a' /\ e = e'.
Proof.
  induction l as [|[y e0] l IH]; intros a x e b a' e' b' Hnd H H'.
  - destruct a; discriminate.
  - cbn in Hnd. inversion Hnd as [|? ? H2 H3]; subst.
    assert (Hin : forall c z d f, c ++ (z, d) :: f = l -> In z (map fst l)).
    { intros c z d f <-. rewrite map_app. apply in_or_app. right. now left. }
    destruct a as [|p a], a' as [|p' a']; cbn in H, H'.
    + injection H as _ -> _. injection H' as _ -> _. auto.
    + injection H as -> _ _. injection H' as _ H'. exfalso. apply H2.
      eapply Hin. symmetry. exact H'.
    + injection H' as -> _ _. injection H as _ H. exfalso. apply H2.
      eapply Hin. symmetry. exact H.
    + injection H as <- H. injection H' as <- H'.
      destruct (IH _ _ _ _ _ _ _ H3 H H') as [-> ->]. auto.
Qed.

Lemma unfolds_det : NoDup (map fst ds) -> forall t s, unfolds h0 ids0 ds t s ->
  forall s', unfolds h0 ids0 ds t s' -> s = s'.
Proof.
  intros Hnd t s H. induction H as [i n s H K|a e s H|a x e b s H K IH]; intros s' H'.
  - inversion H'; subst. congruence.
  - inversion H'; subst. congruence.
  - inversion H' as [| |a' x' e' b' s2 H1 H2 Ex Es]. subst x' s2.
    destruct (split_unique _ _ _ _ _ _ _ _ Hnd H H1) as [-> ->]. auto.
Qed.

(** * Legal declarations are accepted *)
Lemma legal_find : forall an s L x, Inv an s L -> outer x \/ In x an ->
  exists d, findId (ids s) x = Some d.
Proof.
  intros an s L x [_ _ (ex & C1 & C2 & C3 & C4 & C5) _ _ _] H.
  rewrite C1, findId_app. destruct (findId ex x) as [d|] eqn:Ed; eauto.
  destruct H as [H|H].
  - unfold TypeDeclSpec.outer in H. destruct (findId ids0 x); eauto. congruence.
  - apply C3 in H. apply findId_none in Ed. contradiction.
Qed.

Definition GT (e : texpr) : Prop := forall an s L,
  Inv an s L -> (Q -> resOk an (results e)) -> E -> noEmpty e -> allDecl s ->
  legal an e ->
  exists s' i, parseType s e = Ok (s', i) /\ allDecl s' /\ nonfwd (heap s') i.

Definition GF (e : texpr) : Prop := forall an s L (rbs : bool),
  Inv an s L -> (Q -> resOk an (results e)) -> E -> noEmpty e -> allDecl s ->
  behind an e ->
  exists s' i, orForward s rbs e (parseType s e) = Ok (s', i) /\ allDecl s'.

Lemma GT_GF : forall e, GT e -> GF e.
Proof.
  intros e H an s L rbs HI Hr He Hne Ha Hb. destruct e as [x|e|e|n e|e|e|fs|ps r].
  1:{ cbn [orForward]. destruct (findId (ids s) x) as [d|] eqn:Ef.
      - cbn [parseType]. rewrite Ef. eauto.
      - cbn [typeAdd]. eexists _, _. split; [reflexivity|]. intros d [<-|Hd]; [exact Hb|].
        apply Ha. exact Hd. }
  all: cbn [orForward]; destruct (H an s L HI Hr He Hne Ha Hb) as (s' & i & A & B & _);
    eauto.
Qed.

Definition GFs (fs : flds) : Prop := forall an s L acc gc,
  Inv an s L -> (Q -> resOk an (resultsF fs)) -> E -> noEmptyF fs -> allDecl s ->
  legalFields ids0 ds an fs ->
  NoDup (map fst acc ++ map fst (meanFields ids0 an fs)) ->
  exists s' r, parseFields s fs acc gc = Ok (s', r) /\ allDecl s'.

Definition GPs (ps : tys) : Prop := forall an s L,
  Inv an s L -> (Q -> resOk an (resultsP ps)) -> E -> noEmptyP ps -> allDecl s ->
  legalParams ids0 ds an ps ->
  exists s' r, parseParams s ps = Ok (s', r) /\ allDecl s'.

Lemma ptr_good : forall e k te, GF e -> results te = results e ->
  (noEmpty te -> noEmpty e) -> (forall an, legal an te = behind an e) ->
  (forall i, isForward (k i) = false) ->
  (forall s, parseType s te = ptrLike k (orForward s false e (parseType s e))) -> GT te.
Proof.
  intros e k te HF Hres Hne Hleg Hk Hparse an s L HI Hr Hee He Ha Hl.
  rewrite Hparse. rewrite Hres in Hr. rewrite Hleg in Hl.
  destruct (HF an s L false HI Hr Hee (Hne He) Ha Hl) as (s1 & j & A & B).
  rewrite A. unfold ptrLike. cbn [bind typeAdd]. eexists _, _. split; [reflexivity|].
  cbn [heap]. split; [exact B|]. eexists. split; [apply nth_end|]. apply Hk.
Qed.

Lemma NoDup_mid : forall A (l r : list A) x, NoDup (l ++ x :: r) -> ~ In x l.
Proof.
  intros A l r x H. apply NoDup_remove_2 in H. intros K. apply H. apply in_or_app. auto.
Qed.

Lemma good_all : (forall e, GT e) /\ (forall fs, GFs fs) /\ (forall ps, GPs ps).
Proof.
  apply texpr_all.
  - intros x an s L HI _ _ _ Ha Hl. destruct (legal_find _ _ _ _ HI Hl) as (d & Hd).
    exists s, (itype d). cbn [parseType]. rewrite Hd. split; auto. split; auto.
    destruct (inv_find _ _ _ _ _ HI Hd) as (_ & n & N1 & _ & N2). exists n. split; auto.
  - intros e H. eapply (ptr_good e KPtr (TPtr e)); auto using GT_GF.
  - intros e H. eapply (ptr_good e KWeak (TWeak e)); auto using GT_GF.
  - intros n e H an s L HI Hr Hee [Hn He] Ha Hl.
    destruct (H an s L HI Hr Hee He Ha Hl) as (s1 & j & A & B & b & B1 & B2).
    cbn [parseType]. rewrite A. cbn [bind]. rewrite B1, B2, andb_false_r.
    cbn [typeAdd]. eexists _, _. split; [reflexivity|]. split; [exact B|].
    eexists. split; [apply nth_end|reflexivity].
  - intros e H. eapply (ptr_good e KDyn (TDyn e)); auto using GT_GF.
  - intros e H. eapply (ptr_good e KMap (TMap e)); auto using GT_GF.
  - intros fs H an s L HI Hr Hee He Ha [Hl1 Hl2].
    destruct (H an s L [] false HI Hr Hee He Ha Hl1) as (s1 & [l g] & A & B); auto.
    cbn [parseType]. rewrite A. cbn [bind typeAdd]. eexists _, _. split; [reflexivity|].
    split; [exact B|]. eexists. split; [apply nth_end|reflexivity].
  - intros ps H r Hr0 an s L HI Hr Hee [He1 He2] Ha [Hl1 Hl2].
    assert (HR : Q -> resOk an (resultsP ps) /\ resOk an (resName r)).
    { intros q. apply resOk_app. exact (Hr q). }
    destruct (H an s L HI) as (s1 & l & A & B); auto.
    { intros q. apply HR. exact q. }
    destruct (proj2 (proj2 parse_all) ps an s L s1 l HI) as (hx & L1 & _ & HI1 & _); auto.
    { intros q. apply HR. exact q. }
    assert (Hrr : Q -> resOk an (results r)).
    { intros q. destruct (HR q) as [_ HR2]. destruct r; try exact HR2. intros y []. }
    destruct (GT_GF r Hr0 an s1 (L ++ L1) true HI1 Hrr Hee He2 B Hl2) as (s2 & j & A2 & B2).
    destruct (PT_PF r (proj1 parse_all r) an s1 (L ++ L1) s2 j true HI1) as
      (hx2 & L2 & _ & HI2 & C2 & _); auto.
    { intros q. apply HR. exact q. }
    cbn [parseType]. rewrite A. cbn [bind]. rewrite A2. cbn [bind].
    destruct (nth_error (heap s2) j) as [b|] eqn:Eb.
    2:{ apply nth_error_None in Eb. pose proof (label_lt _ _ _ _ _ HI2 C2). lia. }
    cbn [typeAdd]. eexists _, _. split; [reflexivity|]. split; [exact B2|].
    eexists. split; [apply nth_end|reflexivity].
  - intros an s L acc gc HI _ _ _ Ha _ _. cbn. eauto.
  - intros x e He0 fs H an s L acc gc HI Hr Hee [He1 He2] Ha [Hl1 Hl2] Hnd.
    assert (HR : Q -> resOk an (results e) /\ resOk an (resultsF fs)).
    { intros q. apply resOk_app. exact (Hr q). }
    assert (Hp : exists s1 j, orForward s false e (parseType s e) = Ok (s1, j) /\
                   allDecl s1 /\ nonfwd (heap s1) j).
    { destruct (He0 an s L HI) as (s1 & j & A & B & C); auto.
      { intros q. apply HR. exact q. }
      exists s1, j. split; auto. destruct e as [y| | | | | | |]; auto.
      cbn [orForward]. destruct (legal_find _ _ _ _ HI Hl1) as (d & Hd). now rewrite Hd. }
    destruct Hp as (s1 & j & A & B & b & B1 & B2).
    destruct (PT_PF e (proj1 parse_all e) an s L s1 j false HI) as
      (hx & L1 & _ & HI1 & C1 & _); auto.
    { intros q. apply HR. exact q. }
    cbn [parseFields]. rewrite A. cbn [bind]. rewrite B1, B2.
    cbn [meanFields map fst] in Hnd.
    assert (Hx : existsb (fun p => fst p =? x) acc = false).
    { apply not_true_is_false. intros K. apply existsb_exists in K.
      destruct K as (p & P1 & P2). apply Nat.eqb_eq in P2. apply NoDup_mid in Hnd.
      apply Hnd. rewrite <- P2. now apply in_map. }
    rewrite Hx.
    assert (Hal : nal b = true).
    { destruct (I_node _ _ _ HI1 j b B1 B2) as (t & _ & O). apply O. exact Hee. }
    rewrite Hal. cbn [negb].
    apply (H an s1 (L ++ L1)); auto.
    { intros q. apply HR. exact q. }
    rewrite map_app, <- app_assoc. exact Hnd.
  - intros an s L HI _ _ _ Ha _. cbn. eauto.
  - intros e He0 ps H an s L HI Hr Hee [He1 He2] Ha [Hl1 Hl2].
    assert (HR : Q -> resOk an (results e) /\ resOk an (resultsP ps)).
    { intros q. apply resOk_app. exact (Hr q). }
    destruct (GT_GF e He0 an s L false HI) as (s1 & j & A & B); auto.
    { intros q. apply HR. exact q. }
    destruct (PT_PF e (proj1 parse_all e) an s L s1 j false HI) as
      (hx & L1 & _ & HI1 & C1 & _); auto.
    { intros q. apply HR. exact q. }
    destruct (H an s1 (L ++ L1) HI1) as (s2 & l & A2 & B2); auto.
    { intros q. apply HR. exact q. }
    cbn [parseParams]. rewrite A. cbn [bind]. rewrite A2. cbn [bind]. eauto.
Qed.

Lemma good_item : forall a x e b s L,
  ds = a ++ (x, e) :: b -> Inv (map fst a) s L -> plainAliases ids0 ds ->
  Q -> E -> legalDecl ids0 ds -> allDecl s ->
  exists s', parseItem s x e = Ok s' /\ allDecl s'.
Proof.
  intros a x e b s L Hds HI Hpa q Hee (Hnd & Hcur & Hleg) Ha.
  assert (Hin : In (x, e) ds) by (rewrite Hds; apply in_or_app; right; now left).
  assert (Hres : Q -> resOk (map fst a) (results e)).
  { intros _ y Hy Hna Ho e' He'. eapply (proj2 q); eauto. }
  assert (Hne : noEmpty e) by (eapply (proj2 Hee); eauto).
  destruct (proj1 good_all e (map fst a) s L HI Hres Hee Hne Ha (Hleg _ _ _ _ Hds)) as
    (s1 & i & A & B & n & B1 & B2).
  destruct (proj1 parse_all e (map fst a) s L s1 i HI Hres) as
    (hx & L1 & _ & HI1 & C1 & _ & _ & G & _); auto.
  pose proof (inv_copy _ _ _ _ _ _ _ _ Hds HI1 C1 B1 B2) as HI2.
  assert (Hxa : ~ In x (map fst a)).
  { rewrite Hds, map_app in Hnd. cbn in Hnd. eapply NoDup_mid; eauto. }
  assert (Hxd : declared x).
  { unfold TypeDeclSpec.declared. apply in_map_iff. exists (x, e). auto. }
  unfold parseItem. rewrite A. cbn [bind]. rewrite B1. cbn [typeAdd].
  unfold identAddType. cbn [heap ids]. rewrite nth_end. cbn [nk ngc nal].
  assert (Hnew : allDecl (mkSt (heap s1 ++ [mkNode (nk n) (ngc n) (nal n) (Some x)])
                    (mkIdent x (List.length (heap s1)) true :: ids s1))).
  { intros d [<-|Hd]; [now right|]. apply B. exact Hd. }
  destruct (findId (ids s1) x) as [d|] eqn:Ed; [|eauto].
  destruct (icur d) eqn:Ei; [|eauto].
  destruct HI2 as [_ _ (ex & E1 & E2 & E3 & E4 & E5) F _ _]. cbn [heap ids] in *.
  pose proof Ed as Ed'. rewrite E1, findId_app in Ed'.
  destruct (findId ex x) as [d'|] eqn:Ex.
  2:{ specialize (Hcur x d Hxd Ed'). congruence. }
  injection Ed' as ->. apply findId_in in Ex. destruct Ex as [Ex <-].
  destruct (E4 d Ex) as (_ & K2 & f & K3 & [[K4 _]|(_ & K5 & _)]); [contradiction|].
  rewrite K3. destruct (nk f) as [rbs| | | | | | | |] eqn:Ekf; try discriminate.
  rewrite B2. destruct (F _ _ _ K3 Ekf) as (y & Y1 & Y2). rewrite K2 in Y1.
  injection Y1 as <-.
  destruct (rbs && negb (structured (nk n))) eqn:Er.
  - exfalso. apply andb_prop in Er. destruct Er as [-> Er].
    destruct (G (Y2 q eq_refl e Hin)) as (m & M1 & M2). rewrite B1 in M1.
    injection M1 as <-. rewrite M2 in Er. discriminate.
  - eexists. split; [reflexivity|]. exact B.
Qed.

Lemma good_items : forall b a s L,
  ds = a ++ b -> Inv (map fst a) s L -> plainAliases ids0 ds ->
  Q -> E -> legalDecl ids0 ds -> allDecl s ->
  exists s', parseItems s b = Ok s' /\ allDecl s'.
Proof.
  induction b as [|[x e] b IH]; intros a s L Hds HI Hpa q Hee Hl Ha; [cbn; eauto|].
  destruct (good_item _ _ _ _ _ _ Hds HI Hpa q Hee Hl Ha) as (s1 & A & B).
  destruct (parse_item _ _ _ _ _ _ _ Hds HI Hpa A) as (L1 & HI1 & _).
  assert (Hds2 : ds = (a ++ [(x, e)]) ++ b) by (rewrite <- app_assoc; exact Hds).
  assert (Hm : map fst (a ++ [(x, e)]) = map fst a ++ [x]) by now rewrite map_app.
  rewrite <- Hm in HI1. cbn [parseItems]. rewrite A. cbn [bind]. eapply IH; eauto.
Qed.

Lemma decl_good : plainAliases ids0 ds -> Q -> E -> legalDecl ids0 ds ->
  exists s', parseTypeDecl (mkSt h0 ids0) ds = Ok s'.
Proof.
  intros Hpa q Hee Hl.
  destruct (good_items ds [] _ _ eq_refl inv_init Hpa q Hee Hl) as (s1 & A & B).
  { intros d Hd. left. cbn in Hd. unfold TypeDeclSpec.outer. intros K.
    apply findId_none in K. apply K. now apply in_map. }
  unfold parseTypeDecl. rewrite A. cbn [bind].
  destruct (parse_items ds [] _ _ _ eq_refl inv_init Hpa A) as (L & HI & _).
  destruct (existsb (fun n => isForward (nk n)) (heap s1)) eqn:Ef; [|eauto].
  exfalso. apply existsb_exists in Ef. destruct Ef as (n & N1 & N2).
  apply In_nth_error in N1. destruct N1 as (i & N1).
  destruct HI as [_ _ (ex & E1 & E2 & E3 & E4 & E5) _ _ _].
  destruct (E5 i n N1 N2) as (d & D1 & D2).
  destruct (E4 d D1) as (_ & _ & m & M1 & [[_ M2]|(M2 & _ & M3)]).
  - rewrite D2, N1 in M1. injection M1 as <-. congruence.
  - destruct (B d) as [K|K]; auto.
    rewrite E1. apply in_or_app. auto.
Qed.

End Decl.

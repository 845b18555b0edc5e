(** Accepted declarations leave a sound graph of types. *)
Require Import Arith List Bool Lia.
Require Import Verif.Base Verif.TypeDeclModel Verif.TypeDeclSpec Verif.TypeDeclProofs.
Import ListNotations.
Local Open Scope nat_scope.

Definition nodeS (h : list node) (n : node) : Prop :=
  (forall j, In j (parts (nk n)) -> j < List.length h) /\
  match nk n with KStruct fs => NoDup (map fst fs) | _ => True end.

Record SInv (s : st) : Prop := {
  S_ids : forall d, In d (ids s) -> itype d < List.length (heap s);
  S_fin : forall i n, nth_error (heap s) i = Some n -> isForward (nk n) = false ->
    finite (heap s) i /\ (holdsPtr (heap s) i -> ngc n = true) /\ nodeS (heap s) n
}.

Lemma nodeS_mono : forall h h' n, List.length h <= List.length h' -> nodeS h n ->
  nodeS h' n.
Proof.
  intros h h' n H [A B]. split; auto. intros j Hj. specialize (A j Hj). lia.
Qed.

Lemma s_add : forall s n, SInv s ->
  (isForward (nk n) = false -> nodeS (heap s) n /\ gcOk (heap s) n /\
     forall j, In j (byval (nk n)) -> nonfwd (heap s) j) ->
  SInv (mkSt (heap s ++ [n]) (ids s)).
Proof.
  intros s n [A B] H.
  assert (Hl : List.length (heap s) <= List.length (heap s ++ [n]))
    by (rewrite app_length; lia).
  constructor; cbn [heap ids].
  - intros d Hd. specialize (A d Hd). lia.
  - intros i m Hi Hm. apply nth_snoc in Hi. destruct Hi as [Hi|[-> ->]].
    + destruct (B i m Hi Hm) as (B1 & B2 & B3). split; [|split].
      * eapply finite_agree; [apply agree_app|auto].
      * intros K. apply B2. eapply holds_agree; eauto. apply agree_app.
      * eapply nodeS_mono; eauto.
    + destruct (H Hm) as (H1 & [H2 H3] & H4).
      assert (Hb : forall j, In j (byval (nk n)) -> finite (heap s) j).
      { intros j Hj. destruct (H4 j Hj) as (b & B1 & B2). eapply B; eauto. }
      split; [|split; [|eapply nodeS_mono; eauto]].
      * eapply fin_intro; [apply nth_end|auto|]. intros j Hj.
        eapply finite_agree; [apply agree_app|auto].
      * intros K. destruct (holds_inv _ _ _ K (nth_end _ _ _)) as [K1|(j & K1 & K2)]; auto.
        apply (H3 j K1). eapply holds_agree; eauto. apply agree_app.
Qed.

Lemma s_ident : forall s x t c, SInv s -> t < List.length (heap s) ->
  SInv (mkSt (heap s) (mkIdent x t c :: ids s)).
Proof.
  intros s x t c [A B] H. constructor; cbn [heap ids]; auto. intros d [<-|Hd]; auto.
Qed.

(** What parsing leaves. *)
Definition post {A} (s : st) (o : outcome (st * A)) (P : st -> A -> Prop) : Prop :=
  match o with
  | Ok (s', a) => SInv s' /\ (exists hx, heap s' = heap s ++ hx) /\ P s' a
  | Err _ => True
  | UB => False
  end.

Definition inH (s : st) (i : nat) : Prop := i < List.length (heap s).

Definition ST (e : texpr) : Prop := forall s, SInv s -> post s (parseType s e) inH.

Lemma find_lt : forall s x d, SInv s -> findId (ids s) x = Some d ->
  itype d < List.length (heap s).
Proof. intros s x d H K. apply findId_in in K. destruct K. now apply (S_ids _ H). Qed.

Lemma ST_SF : forall e s rbs, ST e -> SInv s ->
  post s (orForward s rbs e (parseType s e)) inH.
Proof.
  intros e s rbs H HI. specialize (H s HI). destruct e; cbn [orForward]; auto.
  destruct (findId (ids s) x) as [d|] eqn:Ef; auto. cbn. split.
  - apply (s_ident (mkSt (heap s ++ [_]) (ids s))).
    + apply s_add; auto. discriminate.
    + cbn. rewrite app_length. cbn. lia.
  - split; [eauto|]. unfold inH. cbn. rewrite app_length. cbn. lia.
Qed.

Definition SFs (fs : flds) : Prop := forall s acc gc, SInv s ->
  (forall x j, In (x, j) acc -> exists n, nth_error (heap s) j = Some n /\
     isForward (nk n) = false /\ (ngc n = true -> gc = true)) ->
  NoDup (map fst acc) ->
  post s (parseFields s fs acc gc) (fun s' r =>
    let (l, g) := (r : list (nat * nat) * bool) in
    NoDup (map fst l) /\
    forall x j, In (x, j) l -> exists n, nth_error (heap s') j = Some n /\
      isForward (nk n) = false /\ (ngc n = true -> g = true)).

Definition SPs (ps : tys) : Prop := forall s, SInv s ->
  post s (parseParams s ps) (fun s' l => forall j, In j l -> inH s' j).

Lemma s_ptr : forall s o k, post s o inH ->
  (forall i, parts (k i) = [i] /\ byval (k i) = []) ->
  (forall i fs, k i <> KStruct fs) ->
  post s (ptrLike k o) inH.
Proof.
  intros s o k H Hk Hk2. unfold ptrLike. destruct o as [[s1 i]| |]; cbn [bind]; auto.
  destruct H as (A & (hx & B) & C). cbn. split; [|split].
  - apply s_add; auto. cbn. intros _. destruct (Hk i) as [K1 K2]. split; [|split].
    + split; cbn.
      * rewrite K1. intros j [<-|[]]. exact C.
      * destruct (k i) eqn:E; auto. exfalso. apply (Hk2 i fs E).
    + split; cbn; auto. rewrite K2. intros j [].
    + rewrite K2. intros j [].
  - exists (hx ++ [mkNode (k i) (plainGc (k i)) true None]). rewrite B.
    now rewrite app_assoc.
  - unfold inH. cbn. rewrite app_length. cbn. lia.
Qed.

Lemma sparse_all : (forall e, ST e) /\ (forall fs, SFs fs) /\ (forall ps, SPs ps).
Proof.
  apply texpr_all.
  - intros x s HI. cbn [parseType]. destruct (findId (ids s) x) as [d|] eqn:Ed; cbn; auto.
    split; auto. split; [exists []; now rewrite app_nil_r|]. eapply find_lt; eauto.
  - intros e H s HI. cbn [parseType]. apply s_ptr; auto using ST_SF; discriminate.
  - intros e H s HI. cbn [parseType]. apply s_ptr; auto using ST_SF; discriminate.
  - intros n e H s HI. cbn [parseType]. specialize (H s HI).
    destruct (parseType s e) as [[s1 i]| |]; cbn [bind]; auto.
    destruct H as (A & (hx & B) & C).
    destruct (nth_error (heap s1) i) as [b|] eqn:Eb.
    2:{ apply nth_error_None in Eb. unfold inH in C. lia. }
    destruct (Nat.ltb 0 n && isForward (nk b)) eqn:Ec; [exact I|].
    cbn [typeAdd post].
    assert (Hnf : 0 < n -> isForward (nk b) = false).
    { intros Hn. apply Nat.ltb_lt in Hn. rewrite Hn in Ec. exact Ec. }
    split; [|split].
    + apply s_add; auto. cbn. intros _. split; [|split].
      * split; cbn; auto. intros j [<-|[]]. exact C.
      * split; cbn; [discriminate|]. intros j Hj K. destruct n; [contradiction|].
        destruct Hj as [<-|[]].
        destruct (S_fin _ A i b Eb) as (_ & K2 & _); [apply Hnf; lia|auto].
      * intros j Hj. destruct n; [contradiction|]. destruct Hj as [<-|[]].
        exists b. split; [auto|apply Hnf; lia].
    + exists (hx ++ [mkNode (KArr n i) (ngc b) (nal b) None]). cbn. rewrite B.
      now rewrite app_assoc.
    + unfold inH. cbn. rewrite app_length. cbn. lia.
  - intros e H s HI. cbn [parseType]. apply s_ptr; auto using ST_SF; discriminate.
  - intros e H s HI. cbn [parseType]. apply s_ptr; auto using ST_SF; discriminate.
  - intros fs H s HI. cbn [parseType]. specialize (H s [] false HI).
    destruct (parseFields s fs [] false) as [[s1 [l g]]| |]; cbn [bind]; try exact I.
    2:{ apply H; [intros x j []|constructor]. }
    destruct H as (A & (hx & B) & C & D); [intros x j []|constructor|].
    cbn [typeAdd post]. split; [|split].
    + apply s_add; auto. cbn. intros _. split; [|split].
      * split; cbn; auto. intros j Hj. apply in_map_iff in Hj.
        destruct Hj as ((x & k) & <- & Hj). destruct (D _ _ Hj) as (n & N1 & _).
        eapply nth_lt; eauto.
      * split; cbn; [discriminate|]. intros j Hj K. apply in_map_iff in Hj.
        destruct Hj as ((x & k) & <- & Hj). destruct (D _ _ Hj) as (n & N1 & N2 & N3).
        apply N3. destruct (S_fin _ A _ n N1 N2) as (_ & K2 & _). auto.
      * intros j Hj. apply in_map_iff in Hj.
        destruct Hj as ((x & k) & <- & Hj). destruct (D _ _ Hj) as (n & N1 & N2 & N3).
        exists n. auto.
    + exists (hx ++ [mkNode (KStruct l) g true None]). cbn. rewrite B.
      now rewrite app_assoc.
    + unfold inH. cbn. rewrite app_length. cbn. lia.
  - intros ps H r Hr s HI. cbn [parseType]. specialize (H s HI).
    destruct (parseParams s ps) as [[s1 l]| |]; cbn [bind]; auto.
    destruct H as (A & (hx & B) & C). pose proof (ST_SF r s1 true Hr A) as H2.
    destruct (orForward s1 true r (parseType s1 r)) as [[s2 j]| |]; cbn [bind]; auto.
    destruct H2 as (A2 & (hx2 & B2) & C2).
    destruct (nth_error (heap s2) j) as [b|] eqn:Eb.
    2:{ apply nth_error_None in Eb. unfold inH in C2. lia. }
    cbn [typeAdd post]. split; [|split].
    + apply s_add; auto. cbn. intros _. split; [|split].
      * split; cbn; auto. intros k [<-|Hk]; auto. specialize (C k Hk). unfold inH in C.
        rewrite B2, app_length. lia.
      * split; cbn; [auto|intros k []].
      * intros k [].
    + eexists ((hx ++ hx2) ++ [_]). cbn. rewrite B2, B. now rewrite !app_assoc.
    + unfold inH. cbn. rewrite app_length. cbn. lia.
  - intros s acc gc HI Hacc Hnd. cbn. split; auto.
    split; [exists []; now rewrite app_nil_r|]. auto.
  - intros x e He0 fs H s acc gc HI Hacc Hnd. cbn [parseFields].
    pose proof (ST_SF e s false He0 HI) as H1.
    destruct (orForward s false e (parseType s e)) as [[s1 j]| |]; cbn [bind]; auto.
    destruct H1 as (A & (hx & B) & C).
    destruct (nth_error (heap s1) j) as [b|] eqn:Eb.
    2:{ apply nth_error_None in Eb. unfold inH in C. lia. }
    destruct (existsb (fun p => fst p =? x) acc) eqn:Ed; [exact I|].
    destruct (isForward (nk b)) eqn:Ef; [exact I|].
    destruct (negb (nal b)); [exact I|].
    specialize (H s1 (acc ++ [(x, j)]) (gc || ngc b) A).
    assert (Hacc2 : forall y k, In (y, k) (acc ++ [(x, j)]) -> exists n,
              nth_error (heap s1) k = Some n /\ isForward (nk n) = false /\
              (ngc n = true -> gc || ngc b = true)).
    { intros y k Hk. apply in_app_or in Hk. destruct Hk as [Hk|[Hk|[]]].
      - destruct (Hacc y k Hk) as (n & N1 & N2 & N3). exists n.
        split; [rewrite B; now apply nth_app_l|]. split; auto.
        intros K. now rewrite N3.
      - injection Hk as <- <-. exists b. split; auto. split; auto. intros ->.
        apply orb_true_r. }
    assert (Hnd2 : NoDup (map fst (acc ++ [(x, j)]))).
    { rewrite map_app. apply NoDup_app_single; auto. intros K. apply in_map_iff in K.
      destruct K as (p & P1 & P2). apply eq_true_false_abs with (2 := Ed).
      apply existsb_exists. exists p. split; auto. now apply Nat.eqb_eq. }
    specialize (H Hacc2 Hnd2).
    destruct (parseFields s1 fs (acc ++ [(x, j)]) (gc || ngc b)) as [[s2 [l g]]| |]; auto.
    destruct H as (A2 & (hx2 & B2) & C2). split; auto. split; auto.
    exists (hx ++ hx2). rewrite B2, B. now rewrite app_assoc.
  - intros s HI. cbn. split; auto. split; [exists []; now rewrite app_nil_r|].
    intros j [].
  - intros e He0 ps H s HI. cbn [parseParams].
    pose proof (ST_SF e s false He0 HI) as H1.
    destruct (orForward s false e (parseType s e)) as [[s1 j]| |]; cbn [bind]; auto.
    destruct H1 as (A & (hx & B) & C). specialize (H s1 A).
    destruct (parseParams s1 ps) as [[s2 l]| |]; cbn [bind]; auto.
    destruct H as (A2 & (hx2 & B2) & C2). cbn. split; auto. split.
    + exists (hx ++ hx2). rewrite B2, B. now rewrite app_assoc.
    + intros k [<-|Hk]; auto. unfold inH in *. rewrite B2, app_length. lia.
Qed.

(** * Items *)
Definition spost (s : st) (o : outcome st) : Prop :=
  match o with
  | Ok s' => SInv s' /\ agree (heap s) (heap s')
  | Err _ => True
  | UB => False
  end.

Lemma s_resolve : forall s f n t, SInv s -> nth_error (heap s) t = Some n ->
  isForward (nk n) = false ->
  (exists m, nth_error (heap s) f = Some m /\ isForward (nk m) = true) ->
  spost s (Ok (mkSt (setNode (heap s) f n) (ids s))).
Proof.
  intros s f n t [A B] Ht Hn (m & Hm & Hf).
  assert (Hagr : agree (heap s) (setNode (heap s) f n)).
  { intros i k Hi Hk. destruct (Nat.eq_dec i f) as [->|K]; [congruence|].
    rewrite setNode_other; auto. }
  assert (Hlt : f < List.length (heap s)) by (eapply nth_lt; eauto).
  split; auto. constructor; cbn [heap ids].
  - intros d Hd. rewrite setNode_len. auto.
  - intros i b Hi Hb. apply setNode_inv in Hi. destruct Hi as [[-> ->]|[Hi1 Hi2]].
    + destruct (B t n Ht Hn) as (G1 & G2 & G3). apply fin_inv in G1.
      destruct G1 as (n' & N1 & _ & N2). rewrite Ht in N1. injection N1 as <-.
      split; [|split].
      * eapply fin_intro; [now apply setNode_same|auto|]. intros j Hj.
        eapply finite_agree; eauto.
      * intros K. apply G2. eapply holds_intro; eauto.
        destruct (holds_inv _ _ _ K (setNode_same _ _ _ Hlt)) as [K1|(j & K1 & K2)]; auto.
        right. exists j. split; auto. eapply holds_agree; eauto.
      * apply (nodeS_mono (heap s)); [now rewrite setNode_len|auto].
    + destruct (B i b Hi2 Hb) as (G1 & G2 & G3). split; [eapply finite_agree; eauto|].
      split; [intros K; apply G2; eapply holds_agree; eauto|].
      apply (nodeS_mono (heap s)); [now rewrite setNode_len|auto].
Qed.

Lemma s_item : forall s x e, SInv s -> spost s (parseItem s x e).
Proof.
  intros s x e HI. unfold parseItem. pose proof (proj1 sparse_all e s HI) as H.
  destruct (parseType s e) as [[s1 i]| |]; cbn [bind]; auto.
  destruct H as (A & (hx & B) & C).
  destruct (nth_error (heap s1) i) as [n|] eqn:En.
  2:{ apply nth_error_None in En. unfold inH in C. lia. }
  cbn [typeAdd]. set (n' := mkNode (nk n) (ngc n) (nal n) (Some x)).
  assert (A2 : SInv (mkSt (heap s1 ++ [n']) (ids s1))).
  { apply s_add; auto. cbn. intros Hf. destruct (S_fin _ A i n En Hf) as (G1 & G2 & G3).
    apply fin_inv in G1. destruct G1 as (m & M1 & _ & M2). rewrite En in M1.
    injection M1 as <-. split; [exact G3|]. split; [|].
    - split; cbn [n' nk ngc].
      + intros K. apply G2. eapply holds_intro; eauto.
      + intros j Hj K. apply G2. eapply holds_intro; eauto.
    - intros j Hj. specialize (M2 j Hj). apply fin_inv in M2.
      destruct M2 as (k & K1 & K2 & _). exists k. auto. }
  assert (Hagr : agree (heap s) (heap s1 ++ [n'])).
  { rewrite B. intros k m K _. do 2 apply nth_app_l. exact K. }
  unfold identAddType. cbn [heap ids]. rewrite nth_end.
  assert (Hnew : spost s (Ok (mkSt (heap s1 ++ [n'])
                    (mkIdent x (List.length (heap s1)) true :: ids s1)))).
  { split; auto. apply (s_ident (mkSt (heap s1 ++ [n']) (ids s1))); auto.
    cbn. rewrite app_length. cbn. lia. }
  destruct (findId (ids s1) x) as [d|] eqn:Ed; [|exact Hnew].
  destruct (icur d); [|exact Hnew].
  destruct (nth_error (heap s1 ++ [n']) (itype d)) as [f|] eqn:Ef.
  2:{ apply nth_error_None in Ef.
      pose proof (find_lt (mkSt (heap s1 ++ [n']) (ids s1)) x d A2 Ed) as K. cbn in K. lia. }
  destruct (nk f) as [rbs| | | | | | | |] eqn:Ek; try exact I.
  destruct (isForward (nk n')) eqn:Hf; [exact I|].
  destruct (rbs && negb (structured (nk n'))); [exact I|].
  destruct (s_resolve (mkSt (heap s1 ++ [n']) (ids s1)) (itype d) n'
              (List.length (heap s1)) A2) as [K1 K2]; auto.
  - cbn. apply nth_end.
  - exists f. cbn. rewrite Ek. auto.
  - split; auto. eapply agree_trans; eauto.
Qed.

Lemma s_items : forall ds s, SInv s -> spost s (parseItems s ds).
Proof.
  induction ds as [|[x e] ds IH]; intros s HI; cbn [parseItems].
  - split; auto. intros i n; auto.
  - pose proof (s_item s x e HI) as H. destruct (parseItem s x e) as [s1| |];
      cbn [bind]; auto.
    destruct H as [A B]. specialize (IH s1 A). destruct (parseItems s1 ds); auto.
    destruct IH as [C D]. split; auto. eapply agree_trans; eauto.
Qed.

Lemma sound_nonfwd : forall h i n, sound h -> nth_error h i = Some n ->
  isForward (nk n) = false.
Proof.
  intros h i n H Hi. destruct (H _ _ Hi) as [Hfi _]. apply fin_inv in Hfi.
  destruct Hfi as (m & M1 & M2 & _). congruence.
Qed.

Lemma decl_sound : forall h0 ids0 ds, sound h0 -> known ids0 h0 ->
  match parseTypeDecl (mkSt h0 ids0) ds with
  | Ok s' => sound (heap s') /\ known (ids s') (heap s') /\
             (forall i n, nth_error h0 i = Some n -> nth_error (heap s') i = Some n)
  | Err _ => True
  | UB => False
  end.
Proof.
  intros h0 ids0 ds Hs Hk.
  assert (HI : SInv (mkSt h0 ids0)).
  { constructor; cbn [heap ids]; auto. intros i n Hi Hn.
    destruct (Hs _ _ Hi) as (A & B & C & D). split; auto. split; auto. split; auto. }
  unfold parseTypeDecl. pose proof (s_items ds _ HI) as H.
  destruct (parseItems (mkSt h0 ids0) ds) as [s1| |]; cbn [bind]; auto.
  destruct H as [A B]. cbn [heap] in B.
  destruct (existsb (fun n => isForward (nk n)) (heap s1)) eqn:Ef; auto.
  split; [|split].
  - intros i n Hi.
    assert (Hn : isForward (nk n) = false).
    { destruct (isForward (nk n)) eqn:K; auto. exfalso.
      apply eq_true_false_abs with (2 := Ef). apply existsb_exists. exists n.
      split; auto. eapply nth_error_In; eauto. }
    destruct (S_fin _ A i n Hi Hn) as (C & D & E & F). auto.
  - intros d Hd. now apply (S_ids _ A).
  - intros i n Hi. apply B; auto. eapply sound_nonfwd; eauto.
Qed.

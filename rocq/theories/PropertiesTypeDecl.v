(** C71: type declarations and the types they leave. *)
Require Import Arith List Bool.
Require Import Verif.Base Verif.TypeDeclModel Verif.TypeDeclSpec.
Require Import Verif.TypeDeclProofs Verif.TypeDeclSound.
Import ListNotations.
Local Open Scope nat_scope.

(** Before: [int] (name 0), [str] (name 1). *)
Definition exH : list node :=
  [mkNode (KBase (BPlain 0)) false true (Some 0); mkNode (KBase BStr) true true (Some 1)].
Definition exI : list ident := [mkIdent 0 0 false; mkIdent 1 1 false].

Lemma exSound : sound exH.
Proof.
  intros i n H. destruct i as [|[|[|i]]]; cbn in H; try discriminate; injection H as <-.
  - split; [eapply fin_leaf; [reflexivity|exact I]|]. split; [|split; [intros j []|exact I]].
    intros K. exfalso. destruct (holds_inv _ _ _ K eq_refl) as [K1|(j & [] & _)].
    discriminate.
  - split; [eapply fin_leaf; [reflexivity|exact I]|]. split; [auto|].
    split; [intros j []|exact I].
Qed.

Lemma exKnown : known exI exH.
Proof. intros d [<-|[<-|[]]]; cbn; auto. Qed.

(** [type (Tree = struct {left, right: ^Tree; items: []Item; walk: fn (t: Tree): Walk};
           Item = struct {key: str; owner: weak ^Tree}; Walk = [3]Item)]. *)
Definition exTree : list (nat * texpr) :=
  [(10, TStruct (FCons 20 (TPtr (TName 10)) (FCons 21 (TPtr (TName 10))
          (FCons 22 (TDyn (TName 11))
            (FCons 23 (TFn (PCons (TName 10) PNil) (TName 12)) FNil)))));
   (11, TStruct (FCons 24 (TName 1) (FCons 25 (TWeak (TName 10)) FNil)));
   (12, TArr 3 (TName 11))].

(** Parsing a declaration has no undefined behaviour. If it is accepted, then all
    types are finite, counted if their values hold pointers, and complete; the types
    from before stay as they are. *)
Theorem C71_sound : forall h0 ids0 ds, sound h0 -> known ids0 h0 ->
  match parseTypeDecl (mkSt h0 ids0) ds with
  | Ok s' => sound (heap s') /\ known (ids s') (heap s') /\
             (forall i n, nth_error h0 i = Some n -> nth_error (heap s') i = Some n)
  | Err _ => True
  | UB => False
  end.
Proof. exact decl_sound. Qed.
Print Assumptions C71_sound.

Example C71_sound_ex : sound exH /\ known exI exH /\
  is_ok (parseTypeDecl (mkSt exH exI) exTree) = true /\
  (* [type A = struct {b: B}], [type A = [2]A] and a repeated field *)
  parseTypeDecl (mkSt exH exI) [(10, TStruct (FCons 20 (TName 10) FNil))] = Err EOther /\
  parseTypeDecl (mkSt exH exI) [(10, TArr 2 (TName 10))] = Err EOther /\
  parseTypeDecl (mkSt exH exI) [(10, TPtr (TName 11))] = Err EOther /\
  parseTypeDecl (mkSt exH exI)
    [(10, TStruct (FCons 20 (TName 0) (FCons 20 (TName 1) FNil)))] = Err EOther.
Proof.
  split; [exact exSound|]. split; [exact exKnown|]. repeat split; reflexivity.
Qed.

(** Each declared name is the type written for it, to any depth: with the same
    names, lengths, fields, parameters and results. What is written is one type. *)
Theorem C71_meaning_partial : forall h0 ids0 ds s', sound h0 -> known ids0 h0 ->
  plainAliases ids0 ds -> parseTypeDecl (mkSt h0 ids0) ds = Ok s' ->
  (forall x, declared ds x -> exists d, findId (ids s') x = Some d /\
     denotes h0 ids0 ds (heap s') (itype d) (SDecl x)) /\
  (forall t s s2, unfolds h0 ids0 ds t s -> unfolds h0 ids0 ds t s2 -> s = s2).
Proof.
  intros h0 ids0 ds s' Hs Hk Hp H.
  destruct (decl_ok h0 ids0 ds Hs Hk s' Hp H) as (A & B & _). split; [exact A|].
  intros t s s2 H1 H2. exact (unfolds_det h0 ids0 ds B t s H1 s2 H2).
Qed.
Print Assumptions C71_meaning_partial.

Lemma exPlain : plainAliases exI exTree.
Proof.
  intros a x y b H. exfalso. unfold exTree in H.
  destruct a as [|? [|? [|? [|? a]]]]; discriminate.
Qed.

Example C71_meaning_ex : plainAliases exI exTree /\
  unfolds exH exI exTree (SDecl 12) (ShArr _ 3 (SDecl 11)) /\
  unfolds exH exI exTree (SDecl 11)
    (ShStruct _ [(24, SOld 1); (25, SText [10] (TWeak (TName 10)))]).
Proof.
  split; [exact exPlain|]. split.
  - apply (U_decl exH exI exTree (firstn 2 exTree) 12 (TArr 3 (TName 11)) []);
      [reflexivity|]. apply U_text. reflexivity.
  - eapply (U_decl exH exI exTree (firstn 1 exTree) 11); [reflexivity|].
    apply U_text. reflexivity.
Qed.

(** Which declarations are accepted. *)
Theorem C71_accepts_partial : forall h0 ids0 ds, sound h0 -> known ids0 h0 ->
  resultsPassed h0 -> (forall n, In n h0 -> nal n = true) ->
  plainAliases ids0 ds -> structuredResults ids0 ds ->
  (forall x e, In (x, e) ds -> noEmpty e) ->
  is_ok (parseTypeDecl (mkSt h0 ids0) ds) = true <-> legalDecl ids0 ds.
Proof.
  intros h0 ids0 ds Hs Hk Hr Ha Hp Hst He. split; intros H.
  - destruct (parseTypeDecl (mkSt h0 ids0) ds) as [s'| |] eqn:E; try discriminate.
    exact (proj2 (proj2 (proj2 (decl_ok h0 ids0 ds Hs Hk s' Hp E))) (conj Ha He)).
  - destruct (decl_good h0 ids0 ds Hs Hk Hp (conj Hr Hst) (conj Ha He) H) as (s' & E).
    now rewrite E.
Qed.
Print Assumptions C71_accepts_partial.

Lemma exStructured : structuredResults exI exTree.
Proof.
  intros a x e b y e' _ _ _ _ [K|[K|[K|[]]]]; injection K as _ <-; reflexivity.
Qed.

Example C71_accepts_ex : resultsPassed exH /\ (forall n, In n exH -> nal n = true) /\
  structuredResults exI exTree /\ (forall x e, In (x, e) exTree -> noEmpty e) /\
  legalDecl exI exTree.
Proof.
  split; [intros i n ps r hr m H K _; destruct i as [|[|[|i]]]; cbn in H;
          try discriminate; injection H as <-; discriminate|].
  split; [intros n [<-|[<-|[]]]; reflexivity|].
  split; [exact exStructured|]. split.
  - intros x e [K|[K|[K|[]]]]; injection K as _ <-; cbn; repeat split; apply Nat.lt_0_succ.
  - apply C71_accepts_partial with (h0 := exH); auto using exSound, exKnown, exPlain,
      exStructured.
    + intros i n ps r hr m H K _; destruct i as [|[|[|i]]]; cbn in H;
          try discriminate; injection H as <-; discriminate.
    + intros n [<-|[<-|[]]]; reflexivity.
    + intros x e [K|[K|[K|[]]]]; injection K as _ <-; cbn; repeat split; apply Nat.lt_0_succ.
Qed.

(** Functions of accepted declarations get a place for their result exactly if it
    is structured. *)
Theorem C71_results_partial : forall h0 ids0 ds s', sound h0 -> known ids0 h0 ->
  resultsPassed h0 -> plainAliases ids0 ds -> structuredResults ids0 ds ->
  parseTypeDecl (mkSt h0 ids0) ds = Ok s' -> resultsPassed (heap s').
Proof.
  intros h0 ids0 ds s' Hs Hk Hr Hp Hst H.
  exact (proj1 (proj2 (proj2 (decl_ok h0 ids0 ds Hs Hk s' Hp H))) (conj Hr Hst)).
Qed.
Print Assumptions C71_results_partial.

(** Not in general: [type (A = ^B; F = fn (): B; B = int)] is accepted, and [F] has
    a place for its result. *)
Theorem C71_result_refuted : exists ds s', plainAliases exI ds /\ legalDecl exI ds /\
  parseTypeDecl (mkSt exH exI) ds = Ok s' /\ ~ resultsPassed (heap s').
Proof.
  exists [(10, TPtr (TName 11)); (12, TFn PNil (TName 11)); (11, TName 0)].
  eexists. split; [|split; [|split; [reflexivity|]]].
  - intros a x y b H. left.
    destruct a as [|? [|? [|? [|? a]]]]; try discriminate.
    cbn in H. injection H as _ _ _ <- _. discriminate.
  - split; [|split].
    + cbn. repeat constructor; cbn; intuition discriminate.
    + intros x d [<-|[<-|[<-|[]]]] K; discriminate.
    + intros a x e b H. destruct a as [|? [|? [|? [|? a]]]]; try discriminate;
        cbn in H; injection H; intros; subst; cbn [legal legalParams].
      * right. unfold declared. cbn. auto.
      * split; [exact I|]. right. unfold declared. cbn. auto.
      * left. discriminate.
  - intros H. specialize (H 5 _ [] 2 true _ eq_refl eq_refl eq_refl). discriminate.
Qed.
Print Assumptions C71_result_refuted.

(** [type (A = ^B; C = B; B = int; C = str)] is accepted, though [C] is declared
    twice. *)
Theorem C71_duplicate_refuted : exists ds,
  is_ok (parseTypeDecl (mkSt exH exI) ds) = true /\ ~ NoDup (map fst ds).
Proof.
  exists [(10, TPtr (TName 11)); (12, TName 11); (11, TName 0); (12, TName 1)].
  split; [reflexivity|]. intros H. inversion H as [|? ? _ H2]; subst.
  inversion H2 as [|? ? H3 _]; subst. apply H3. cbn. auto.
Qed.
Print Assumptions C71_duplicate_refuted.

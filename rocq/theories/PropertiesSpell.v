(** Property C72: the spelling of types in messages. *)
Require Import Arith List Bool Ascii String Lia.
Require Import Verif.Base Verif.SpellModel Verif.SpellSpec Verif.SpellProofs Verif.SpellMore
  Verif.SpellEnds.
Import ListNotations.
Local Open Scope nat_scope.

(** Partial: only if the text fits. Then the message has exactly the text of the type. *)
Theorem C72_short_partial : forall (junk : text) h i s,
  List.length junk = 256 -> wf h -> spells h 10 i s -> List.length s <= 255 ->
  exists N, forall fuel, N <= fuel -> typeSpelling junk h fuel i = Ok s.
Proof. intros junk h i s J W. exact (typeSpelling_short junk h J W i s). Qed.
Print Assumptions C72_short_partial.

(** Any text: the first 255 characters are seen, and no byte behind the buffer is
    written, unless a pointer or dynamic array with too long a text is met. *)
Theorem C72_cut_partial : forall (junk : text) h i s,
  List.length junk = 256 -> wf h -> spells h 10 i s ->
  exists N,
    (overflows h 10 i /\ forall fuel, N <= fuel -> typeSpelling junk h fuel i = UB) \/
    (~ overflows h 10 i /\ forall fuel, N <= fuel ->
       typeSpelling junk h fuel i = Ok (firstn 255 s)).
Proof. intros junk h i s J W. exact (typeSpelling_exact junk h J W i s). Qed.
Print Assumptions C72_cut_partial.

(** Partial: only if no type is a parameter, result, key or list part of itself, other
    than by its name. Then there is a text at every depth, and the call ends. *)
Theorem C72_ends_partial : forall h,
  wf h -> well_founded (fun j i => inner h i j) ->
  forall d i, i < List.length h ->
  exists s, spells h d i s /\ forall s', spells h d i s' -> s' = s.
Proof.
  intros h W F d i Hi. destruct (text_exists h W F d i Hi) as (s & Hs). exists s.
  split; [exact Hs|]. intros s' H'. exact (proj1 (spells_det h) _ _ _ H' _ Hs).
Qed.
Print Assumptions C72_ends_partial.

(** [map[str]^fn (x: int): []Node]: where Node is a global type and the map is not. *)
Definition exTypes : list node :=
  [mkNode (Some (lit "int")) (KWord (lit "int") false false);
   mkNode (Some (lit "str")) (KWord (lit "str") false false);
   mkNode (Some (lit "Node")) (KWord (lit "struct") false true);
   mkNode None (KRef RDyn 2);
   mkNode (Some (lit "any")) (KWord (lit "interface") false true);
   mkNode None (KFn false [4; 0; 3] 3);
   mkNode None (KClosure 5);
   mkNode None (KRef RPtr 6);
   mkNode None (KMap 1 7)].

Local Ltac wf_fn :=
  split; [intros j K; cbn in K; repeat destruct K as [<-|K]; try destruct K; cbn; lia|];
  split; [discriminate|]; eexists; split; [reflexivity|discriminate].

Lemma exTypes_wf : wf exTypes.
Proof.
  assert (C : forall s, forallb (fun c => negb (Ascii.eqb c NUL)) s = true -> clean s).
  { intros s H K. rewrite forallb_forall in H. apply H in K. now rewrite Ascii.eqb_refl in K. }
  intros i n H.
  do 9 (destruct i as [|i]; [injection H as <-; cbn [nk gname wfKind]; split;
    [first [apply C; reflexivity | cbn; lia | wf_fn | do 4 eexists; reflexivity]
    |first [exact I | apply C; reflexivity]]|]).
  destruct i; discriminate H.
Qed.

Lemma exTypes_inner : well_founded (fun j i => inner exTypes i j).
Proof.
  assert (L : forall i j, inner exTypes i j -> j < i).
  { intros i j H.
    assert (V5 : forall j, viaFn exTypes 5 j -> j < 5).
    { intros k V. inversion V as [f g p ps r E|f g m ps r n j' E En I|f g m ps r n E En I];
        subst; cbn in E; [discriminate E| |]; injection E; intros; subst;
        cbn in En; injection En; intros; subst.
      - destruct I as [<-|[]]. lia.
      - lia. }
    inversion H as [i' k j' E|i' fs j' E I|i' m ps r j' E V|i' f j' E V]; subst;
      destruct i as [|[|[|[|[|[|[|[|[|i]]]]]]]]]; try discriminate E;
      try (destruct i; discriminate E); injection E; intros; subst.
    - lia.
    - apply V5 in V. lia.
    - apply V5 in V. lia. }
  intros i. induction i as [i IH] using (well_founded_induction lt_wf).
  constructor. intros j Hj. apply IH. apply L. exact Hj.
Qed.

Lemma exTypes_text : spells exTypes 10 8 (lit "map[str]^fn (int): []Node |...|").
Proof.
  change (lit "map[str]^fn (int): []Node |...|") with
    (lit "map[" ++ lit "str" ++ lit "]" ++ wordOf RPtr ++
     fnText None [lit "int"] (Some (wordOf RDyn ++ lit "Node")) ++ lit " |...|").
  assert (HD : forall d, spells exTypes (S d) 3 (wordOf RDyn ++ lit "Node")).
  { intros d. eapply sp_ref; [reflexivity|]. apply it_more.
    eapply sp_name; [reflexivity|reflexivity]. }
  eapply sp_map; [reflexivity|eapply sp_name; reflexivity|].
  apply it_more. eapply sp_ref; [reflexivity|]. apply it_more.
  eapply sp_closure; [reflexivity|].
  eapply fn_some with (m := false) (n := mkNode None (KRef RDyn 2));
    [reflexivity|reflexivity|constructor| |].
  - cbn [written composite nk tl removelast]. constructor; [|constructor].
    eapply sp_name; reflexivity.
  - apply res_some; [reflexivity|]. apply HD.
Qed.

Example C72_ex : exists junk, List.length junk = 256 /\ wf exTypes /\
  well_founded (fun j i => inner exTypes i j) /\
  spells exTypes 10 8 (lit "map[str]^fn (int): []Node |...|") /\
  typeSpelling junk exTypes 10 8 = Ok (lit "map[str]^fn (int): []Node |...|").
Proof.
  exists (repeat "x"%char 256). split; [reflexivity|]. split; [exact exTypes_wf|].
  split; [exact exTypes_inner|]. split; [exact exTypes_text|]. reflexivity.
Qed.

(** Refuted in full: a local pointer type to a global type whose name has 255
    characters, the most that the lexer accepts. The name fits; with the ^ before it a
    byte is written behind the end of the buffer, whatever was in it. *)
Theorem C72_buffer_refuted : exists h, wf h /\
  spells h 10 0 (lit "^" ++ repeat "T"%char 255) /\
  spells h 10 1 (repeat "T"%char 255) /\
  forall junk : text, List.length junk = 256 ->
  exists N, forall fuel, N <= fuel -> typeSpelling junk h fuel 0 = UB.
Proof.
  assert (L : List.length (repeat "T"%char 255) = 255) by apply repeat_length.
  assert (C : clean (repeat "T"%char 255)).
  { intros K. apply repeat_spec in K. discriminate K. }
  revert L C. generalize (repeat "T"%char 255) as nm. intros nm L C.
  pose (h := [mkNode None (KRef RPtr 1);
              mkNode (Some nm) (KWord (lit "struct") false true)]).
  assert (W : wf h).
  { intros [|[|[|i]]] n H; try discriminate H; injection H as <-; cbn [nk gname wfKind].
    - split; [cbn; lia|exact I].
    - split; [|exact C].
      intros K; cbn in K; repeat destruct K as [K|K]; try discriminate K; exact K. }
  assert (S1 : forall d, spells h d 1 nm).
  { intros d. eapply sp_name; reflexivity. }
  assert (S0 : spells h 10 0 (lit "^" ++ nm)).
  { apply (sp_ref h 10 0 RPtr 1); [reflexivity|]. apply it_more. apply S1. }
  exists h. split; [exact W|]. split; [exact S0|]. split; [apply S1|].
  intros junk Hj.
  destruct (typeSpelling_exact junk h Hj W 0 _ S0) as (N & [[_ H]|[H _]]).
  - exists N. exact H.
  - exfalso. apply H. eapply ov_here; [reflexivity|apply S1|]. cbn. lia.
Qed.
Print Assumptions C72_buffer_refuted.

(** Refuted in full: a local function type whose parameter has that type. Its spelling
    never ends. *)
Theorem C72_ends_refuted : exists h, wf h /\
  forall junk : text, List.length junk = 256 ->
  forall fuel d (buf : text), List.length buf = 256 -> spell junk h fuel d 0 buf = Err EFuel.
Proof.
  pose (h := [mkNode None (KClosure 1);
              mkNode None (KFn false [2; 0] 3);
              mkNode (Some (lit "any")) (KWord (lit "interface") false true);
              mkNode (Some (lit "void")) (KWord (lit "void") true false)]).
  assert (C : forall s, forallb (fun c => negb (Ascii.eqb c NUL)) s = true -> clean s).
  { intros s H K. rewrite forallb_forall in H. apply H in K. now rewrite Ascii.eqb_refl in K. }
  exists h. split.
  - intros i n H.
    do 4 (destruct i as [|i]; [injection H as <-; cbn [nk gname wfKind]; split;
      [first [apply C; reflexivity | wf_fn | do 4 eexists; reflexivity]
      |first [exact I | apply C; reflexivity]]|]).
    destruct i; discriminate H.
  - intros junk Hj. induction fuel as [|fuel IH]; intros d buf Hb; [reflexivity|].
    cbn [spell h nth_error gname nk fnTo].
    destruct (put_init buf (lit "fn (") Hb ltac:(apply C; reflexivity)) as (b & E & R).
    unfold fnTo. cbn [h nth_error].
    rewrite E. cbn [bind nk structured List.length Nat.sub tl firstn paramsTo].
    rewrite IH by auto. reflexivity.
Qed.
Print Assumptions C72_ends_refuted.

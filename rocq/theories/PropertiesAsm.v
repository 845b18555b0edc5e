(** C74: the assembly listing. *)
From Coq Require Import ZArith Lia Bool List Ascii String.
From Verif Require Import Base AsmModel AsmSpec AsmProofs AsmMore.
Import ListNotations.
Local Open Scope Z_scope.

(** A program with a module, a function, a jump. *)
Definition exFmt (z : Z) : text := [ascii_of_nat (48 + Z.to_nat (z mod 10))].
Definition exCode : list instr :=
  [mkInstr P_GOTO None None None 2 0 0;
   mkInstr P_ENTER_FRAME None None None 7 0 0;
   mkInstr P_PUSH None None (Some (TKOther, lit "int")) 5 0 0;
   mkInstr P_CALL None None None 1 0 0;
   mkInstr P_HALT None None None 0 0 0].
Definition exDbg : list debug := repeat (mkDebug 1 (lit "a.um") (lit "f") 3) 5.

Example C74_example_wf : wellFormed exCode exDbg 5.
Proof.
  split; try (cbn; lia).
  - eexists. split; [do 4 right; left; reflexivity|reflexivity].
  - intros i [<-|[<-|[<-|[<-|[<-|[]]]]]] H; cbn in *; try lia; intuition discriminate.
  - intros i [<-|[<-|[<-|[<-|[<-|[]]]]]] H; cbn in *; try lia; intuition discriminate.
  - intros i [<-|[<-|[<-|[<-|[<-|[]]]]]] H; cbn in *; try lia; intuition discriminate.
  - intros i [<-|[<-|[<-|[<-|[<-|[]]]]]] H; cbn in *; try lia; intuition discriminate.
Qed.

Example C74_example_clean : cleanTexts exFmt exFmt exFmt [] exCode exDbg.
Proof.
  assert (F : forall z, clean (exFmt z)).
  { intros z [H|[]]. unfold exFmt, NUL in H. pose proof (Z.mod_pos_bound z 10 ltac:(lia)).
    apply (f_equal nat_of_ascii) in H. rewrite nat_ascii_embedding in H by lia.
    change (nat_of_ascii _) with 0%nat in H. lia. }
  split; auto.
  - intros i [].
  - intros d H. apply repeat_spec in H. subst. split; apply clean_lit; reflexivity.
  - intros i [<-|[<-|[<-|[<-|[<-|[]]]]]]; cbn; repeat split; try discriminate.
    intros k w H. injection H as _ <-. apply (clean_lit "int"). reflexivity.
Qed.

Example C74_example_text : compilerAsm exFmt exFmt exFmt [] exCode exDbg 5 = Ok (
  NL ++ lit "Module: a.um" ++ NL ++ NL ++
  lit "000000000      3                         GOTO 2" ++ NL ++ NL ++ NL ++
  lit "Function: f" ++ NL ++ NL ++
  lit "000000001      3                  ENTER_FRAME 7" ++ NL ++ NL ++
  lit "000000002      3                         PUSH int 5" ++ NL ++
  lit "000000003      3                         CALL f (1)" ++ NL ++
  lit "000000004      3                         HALT").
Proof. reflexivity. Qed.

(** Every complete program has a listing. *)
Theorem C74_listing_exists : forall fmtInt fmtReal fmtPtr idents code dbg capacity,
  wellFormed code dbg capacity ->
  exists s, listing fmtInt fmtReal fmtPtr idents code dbg 0 None code dbg s.
Proof. exact listing_exists. Qed.
Print Assumptions C74_listing_exists.

(** The text returned is the listing without its last newline. *)
Theorem C74_text : forall fmtInt fmtReal fmtPtr idents code dbg capacity,
  wellFormed code dbg capacity -> cleanTexts fmtInt fmtReal fmtPtr idents code dbg ->
  forall s, listing fmtInt fmtReal fmtPtr idents code dbg 0 None code dbg s ->
  len s + 25 <= INT_MAX ->
  exists p, s = p ++ NL /\ compilerAsm fmtInt fmtReal fmtPtr idents code dbg capacity = Ok p.
Proof.
  intros fmtInt fmtReal fmtPtr idents code dbg capacity WF CT s L H.
  destruct (listing_ends _ _ _ _ _ _ _ _ _ _ _ L) as [p E]. exists p. split; auto.
  eapply asm_text; eauto.
Qed.
Print Assumptions C74_text.

(** A listing too long for an allocation is an error, not a cut text. *)
Theorem C74_too_long : forall fmtInt fmtReal fmtPtr idents code dbg capacity,
  wellFormed code dbg capacity ->
  forall s, listing fmtInt fmtReal fmtPtr idents code dbg 0 None code dbg s ->
  len s < INT_MAX < len s + 25 ->
  compilerAsm fmtInt fmtReal fmtPtr idents code dbg capacity = Err EOther.
Proof. exact asm_too_long. Qed.
Print Assumptions C74_too_long.

(** The whole listing is returned for no program: the last newline is lost. *)
Theorem C74_last_newline_refuted : forall fmtInt fmtReal fmtPtr idents code dbg capacity,
  wellFormed code dbg capacity -> cleanTexts fmtInt fmtReal fmtPtr idents code dbg ->
  forall s, listing fmtInt fmtReal fmtPtr idents code dbg 0 None code dbg s ->
  len s + 25 <= INT_MAX ->
  compilerAsm fmtInt fmtReal fmtPtr idents code dbg capacity <> Ok s.
Proof.
  intros fmtInt fmtReal fmtPtr idents code dbg capacity WF CT s L H E.
  destruct (C74_text _ _ _ _ _ _ _ WF CT s L H) as (p & -> & E'). rewrite E' in E.
  injection E as E. apply (f_equal (@List.length ascii)) in E. rewrite app_length in E. cbn in E. lia.
Qed.
Print Assumptions C74_last_newline_refuted.

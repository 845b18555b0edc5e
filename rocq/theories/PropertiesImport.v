(** * C68: every module is compiled once, after the modules it imports *)
From Coq Require Import ZArith List Bool String Ascii Arith Lia.
From Verif Require Import Base ImportModel ImportSpec ImportProofs ImportMore.
Import ListNotations.
Open Scope string_scope.

(** Four modules: m imports a and b, a imports c, b imports c as x; c is a text that was added. *)
Definition imp (t : string) : item := {| given := None; text := t |}.
Definition impAs (a t : string) : item := {| given := Some a; text := t |}.
Definition mText : list item := [imp "a.um"; imp "b.um"].

Definition nameSample (p : string) : option string :=
  if p =? "/m.um" then Some "m" else if p =? "/a.um" then Some "a"
  else if p =? "/b.um" then Some "b" else if p =? "/c.um" then Some "c" else None.

Definition sample : world := {|
  regCur := fun t => Some ("/" ++ t);
  regIn := fun m t => Some ("/" ++ t);
  source := fun p => if p =? "/c.um" then Some [] else None;
  file := fun p => if p =? "/a.um" then Some [imp "c.um"]
                   else if p =? "/b.um" then Some [impAs "x" "c.um"] else None;
  nameOf := nameSample |}.

Lemma slash_inj a b : "/" ++ a = "/" ++ b -> a = b.
Proof. cbn. intro H. now inversion H. Qed.

Lemma sample_consistent : consistent sample "/m.um" mText.
Proof.
  split.
  - intros m t k _ H _ _. unfold target in H. cbn in *. destruct (String.eqb _ _) in H; exact H.
  - assert (G : forall k, reach sample "/m.um" mText k -> exists t, k = "/" ++ t).
    { intros k R. destruct R as [|m k _ (ts & it & _ & _ & T)]; [exists "m.um"; reflexivity|].
      exists (text it). unfold target in T. cbn in *. destruct (String.eqb _ _) in T; congruence. }
    intro R. destruct (G _ R) as (t & T). discriminate.
Qed.

(** A program compiles exactly if its modules are well-formed, import each other without a cycle and
    are fewer than 1024. *)
Theorem C68_compiles : forall w main ts, consistent w main ts ->
  ((exists s, parseProgram w main ts = Ok s) <-> legal w main ts).
Proof. exact compiles_iff. Qed.
Print Assumptions C68_compiles.

Definition sampleEnd : state := {|
  modules := [
    {| mpath := "#universe"; mname := "#universe"; importAlias := [(0, "#universe")]; isCompiled := false |};
    {| mpath := "/m.um"; mname := "m"; importAlias := [(4, "b"); (2, "a"); (1, "m")]; isCompiled := true |};
    {| mpath := "/a.um"; mname := "a"; importAlias := [(3, "c"); (2, "a")]; isCompiled := true |};
    {| mpath := "/c.um"; mname := "c"; importAlias := [(3, "c")]; isCompiled := true |};
    {| mpath := "/b.um"; mname := "b"; importAlias := [(3, "x"); (4, "b")]; isCompiled := true |}];
  compiled := [3; 2; 4; 1] |}.

Example C68_compiles_ex : parseProgram sample "/m.um" mText = Ok sampleEnd /\ legal sample "/m.um" mText.
Proof.
  assert (H : parseProgram sample "/m.um" mText = Ok sampleEnd) by (vm_compute; reflexivity).
  split; [exact H|]. apply C68_compiles; [exact sample_consistent|]. eauto.
Qed.

(* c importing m again closes a cycle *)
Example C68_cycle_ex :
  parseProgram {| regCur := regCur sample; regIn := regIn sample;
                  source := fun p => if p =? "/c.um" then Some [imp "m.um"] else None;
                  file := file sample; nameOf := nameSample |} "/m.um" mText = Err EOther.
Proof. vm_compute. reflexivity. Qed.

(** The declarations of every module that the main module reaches are compiled, once, and of no other. *)
Theorem C68_once : forall w main ts, consistent w main ts -> forall s, parseProgram w main ts = Ok s ->
  NoDup (bodies s) /\ (forall k, In (Some k) (bodies s) <-> reach w main ts k) /\
  (forall x, In x (bodies s) -> x <> None).
Proof. exact bodies_once. Qed.
Print Assumptions C68_once.

Example C68_once_ex : bodies sampleEnd = [Some "/c.um"; Some "/a.um"; Some "/b.um"; Some "/m.um"].
Proof. reflexivity. Qed.

(** They are compiled after those of the modules imported. *)
Theorem C68_order : forall w main ts, consistent w main ts -> forall s m k,
  parseProgram w main ts = Ok s -> reach w main ts m -> imports w main ts m k ->
  exists x y, x < y /\ nth_error (bodies s) x = Some (Some k) /\ nth_error (bodies s) y = Some (Some m).
Proof. exact bodies_order. Qed.
Print Assumptions C68_order.

Example C68_order_ex : reach sample "/m.um" mText "/b.um" /\ imports sample "/m.um" mText "/b.um" "/c.um".
Proof.
  split.
  - eapply reach_step; [apply reach_main|]. exists mText, (imp "b.um"). cbn. auto.
  - exists [impAs "x" "c.um"], (impAs "x" "c.um"). cbn. auto.
Qed.

(** In every module the name of an import, given or taken from the path, stands for the module whose
    path was written. *)
Theorem C68_names : forall w main mts, consistent w main mts -> forall s m ts it a k,
  parseProgram w main mts = Ok s ->
  reach w main mts m -> textOf w main mts m = Some ts -> In it ts ->
  target w m (text it) = Some k -> knownAs w m it = Some a ->
  exists j i, pathAt s j = Some m /\ pathAt s i = Some k /\ moduleFindImported s j a = Some i.
Proof. exact names_resolved. Qed.
Print Assumptions C68_names.

Example C68_names_ex :
  textOf sample "/m.um" mText "/b.um" = Some [impAs "x" "c.um"] /\
  target sample "/b.um" "c.um" = Some "/c.um" /\ knownAs sample "/b.um" (impAs "x" "c.um") = Some "x" /\
  moduleFindImported sampleEnd 4 "x" = Some 3.
Proof. vm_compute. auto. Qed.

(** The compiler ends on every program, also on one whose imports have cycles or do not end. *)
Theorem C68_ends : forall w main ts, parseProgram w main ts <> Err EFuel /\ parseProgram w main ts <> UB.
Proof. exact program_ends. Qed.
Print Assumptions C68_ends.

(* a module that imports itself *)
Example C68_ends_ex :
  parseProgram {| regCur := fun t => None; regIn := fun m t => Some t; source := fun _ => None;
                  file := fun _ => Some [imp "x"]; nameOf := fun p => Some p |} "m" [imp "x"] = Err EOther.
Proof. vm_compute. reflexivity. Qed.

(** A text added for a path is not found if the path is written relative to another folder: the program
    is legal, and is rejected since there is no such file. *)
Definition other : world := {|
  regCur := fun t => Some ("/" ++ t);
  regIn := fun m t => Some ((if m =? "/lib/a.um" then "/lib/" else "/") ++ t);
  source := fun p => if p =? "/lib/b.um" then Some [] else None;
  file := fun p => if p =? "/lib/a.um" then Some [imp "b.um"] else None;
  nameOf := fun p => if p =? "/m.um" then Some "m" else if p =? "/lib/a.um" then Some "a"
                     else if p =? "/lib/b.um" then Some "b" else None |}.

Theorem C68_added_text_refuted :
  legal other "/m.um" [imp "lib/a.um"] /\ ~ reach other "/m.um" [imp "lib/a.um"] "#universe" /\
  parseProgram other "/m.um" [imp "lib/a.um"] = Err EOther.
Proof.
  assert (IM : forall m k, reach other "/m.um" [imp "lib/a.um"] m -> imports other "/m.um" [imp "lib/a.um"] m k ->
    m = "/m.um" /\ k = "/lib/a.um" \/ m = "/lib/a.um" /\ k = "/lib/b.um").
  { intros m k R. revert k. induction R as [|m' m R IH IM']; intros k IM.
    - destruct IM as (ts & it & T & IT & TG). cbn in T. inversion T; subst. destruct IT as [<-|[]].
      left. cbn in TG. inversion TG. auto.
    - destruct (IH _ IM') as [(-> & ->)|(-> & ->)]; destruct IM as (ts & it & T & IT & TG); cbn in T.
      + inversion T; subst. destruct IT as [<-|[]]. right. cbn in TG. inversion TG. auto.
      + inversion T; subst. destruct IT. }
  assert (RE : forall m, reach other "/m.um" [imp "lib/a.um"] m -> m = "/m.um" \/ m = "/lib/a.um" \/ m = "/lib/b.um").
  { intros m R. destruct R as [|m' m R I]; [auto|]. destruct (IM _ _ R I) as [(_ & ->)|(_ & ->)]; auto. }
  split; [|split].
  - split; [|split].
    + intros m R. destruct (RE m R) as [-> |[-> | ->]].
      * exists [imp "lib/a.um"], "m". split; [reflexivity|]. split; [reflexivity|].
        split; [intros c [<-|[]]; split; discriminate|]. split; [|split].
        -- intros it [<-|[]]. eexists. reflexivity.
        -- cbn. constructor; [intros []|constructor].
        -- cbn. constructor; [intros [Q|[]]; discriminate|]. constructor; [intros []|constructor].
      * exists [imp "b.um"], "a". split; [reflexivity|]. split; [reflexivity|].
        split; [intros c [<-|[]]; split; discriminate|]. split; [|split].
        -- intros it [<-|[]]. eexists. reflexivity.
        -- cbn. constructor; [intros []|constructor].
        -- cbn. constructor; [intros [Q|[]]; discriminate|]. constructor; [intros []|constructor].
      * exists [], "b". split; [reflexivity|]. split; [reflexivity|].
        split; [intros c [<-|[]]; split; discriminate|]. split; [|split].
        -- intros it [].
        -- constructor.
        -- cbn. constructor; [intros []|constructor].
    + intros m R CH.
      assert (CR : forall a b, chain other "/m.um" [imp "lib/a.um"] a b -> reach other "/m.um" [imp "lib/a.um"] a ->
        reach other "/m.um" [imp "lib/a.um"] b /\
        (a = "/m.um" /\ b <> "/m.um" \/ a = "/lib/a.um" /\ b = "/lib/b.um")).
      { intros a b C. induction C as [a b I|a b c C IH I]; intro RA.
        - split; [eapply reach_step; eauto|]. destruct (IM _ _ RA I) as [(-> & ->)|(-> & ->)]; [left|right; auto].
          split; [reflexivity|discriminate].
        - destruct (IH RA) as (RB & Q). split; [eapply reach_step; eauto|].
          destruct (IM _ _ RB I) as [(-> & ->)|(-> & ->)].
          + destruct Q as [(_ & Q)|(_ & Q)]; [contradiction|discriminate].
          + destruct Q as [(-> & _)|(-> & Q)]; [left; split; [reflexivity|discriminate]|discriminate]. }
      destruct (CR _ _ CH R) as (_ & [(-> & Q)|(-> & Q)]); [contradiction|discriminate].
    + intros l N R.
      assert (INC : incl l ["/m.um"; "/lib/a.um"; "/lib/b.um"]).
      { intros x X. destruct (RE x (R x X)) as [-> |[-> | ->]]; cbn; auto. }
      pose proof (NoDup_incl_length N INC) as Q. cbn [List.length] in Q. unfold MAX_MODULES. lia.
  - intro R. destruct (RE _ R) as [Q|[Q|Q]]; discriminate.
  - vm_compute. reflexivity.
Qed.
Print Assumptions C68_added_text_refuted.

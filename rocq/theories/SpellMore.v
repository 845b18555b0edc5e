(** The spelling of types: the text that is seen. *)
Require Import Arith List Bool Ascii String Lia.
Require Import Verif.Base Verif.SpellModel Verif.SpellSpec Verif.SpellProofs.
Import ListNotations.
Local Open Scope nat_scope.

Lemma rep_trunc1 : forall b len T x, Rep b len (T ++ firstn 255 x) -> clean x ->
  Rep b len (T ++ x).
Proof.
  intros b len T x H C. pose proof (rep_trunc b len T x []) as K.
  rewrite !app_nil_r in K. auto.
Qed.

Section More.
Variable junk : text.
Variable h : list node.
Hypothesis Hjunk : List.length junk = 256.
Hypothesis Hwf : wf h.

Definition sub (fuel d j : nat) : outcome text :=
  let* b := spell junk h fuel d j junk in cstr b.

(** What a part gives: undefined behaviour if it overflows, else its text. *)
Definition Part (d j : nat) (s : text) (o : outcome text) : Prop :=
  clean s /\ ((overflows h d j /\ o = UB) \/ (~ overflows h d j /\ o = Ok (firstn 255 s))).

Definition Parts (d j : nat) (s : text) : Prop :=
  exists N, forall fuel, N <= fuel -> Part d j s (sub fuel d j).

Definition Good (d i : nat) (s : text) : Prop :=
  clean s /\ exists N, 
    (overflows h d i /\ forall fuel, N <= fuel -> forall buf : text, List.length buf = 256 ->
       spell junk h fuel d i buf = UB) \/
    (~ overflows h d i /\ forall fuel, N <= fuel -> forall buf : text, List.length buf = 256 ->
       exists b len, spell junk h fuel d i buf = Ok b /\ Rep b len s).

Lemma good_part : forall d i s, Good d i s -> Parts d i s.
Proof.
  intros d i s (C & N & H). exists N. intros fuel Hf. split; auto.
  destruct H as [[A B]|[A B]].
  - left. split; auto. unfold sub. now rewrite B.
  - right. split; auto. unfold sub. destruct (B fuel Hf junk Hjunk) as (b & len & -> & HR).
    cbn [bind]. eapply rep_cstr. exact HR.
Qed.

(** * Sequences of parts *)
Lemma fields_ok : forall d (sp : nat -> outcome text) js ss,
  Forall2 (fun j s => Part d j s (sp j)) js ss ->
  forall b len T, Rep b len T ->
  ((exists j, In j js /\ overflows h d j) /\ fieldsTo sp js (b, len) = UB) \/
  ((forall j, In j js -> ~ overflows h d j) /\
   exists b' len', fieldsTo sp js (b, len) = Ok (b', len') /\
     Rep b' len' (T ++ List.concat (map (fun s => s ++ lit " ") ss))).
Proof.
  intros d sp js ss H. induction H as [|j s js ss [C P] _ IH]; intros b len T HR.
  - right. split; [intros j []|]. exists b, len. cbn. rewrite app_nil_r. auto.
  - cbn [fieldsTo]. destruct P as [[P ->]|[P ->]]; cbn [bind].
    + left. split; auto. exists j. split; auto. now left.
    + destruct (put_ok b len T (firstn 255 s ++ lit " ") HR) as (b1 & E1 & R1).
      { apply clean_app. split; [now apply clean_firstn|]. intros [K|[]]. discriminate K. }
      rewrite E1. cbn [bind]. apply rep_trunc in R1; auto.
      destruct (IH _ _ _ R1) as [[(j' & I & O) E]|[N (b2 & len2 & E & R2)]].
      * left. split; auto. exists j'. split; auto. now right.
      * right. split; [intros j' [<-|I]; auto|]. exists b2, len2. split; auto.
        cbn [map List.concat]. now rewrite app_assoc.
Qed.

Definition tails (ss : list text) : text := List.concat (map (fun s => lit ", " ++ s) ss).

Lemma join_tails : forall ss s, join (lit ", ") (s :: ss) = s ++ tails ss.
Proof.
  induction ss as [|t ss IH]; intros s.
  - cbn. now rewrite app_nil_r.
  - change (join (lit ", ") (s :: t :: ss)) with (s ++ lit ", " ++ join (lit ", ") (t :: ss)).
    rewrite IH. unfold tails. cbn [map List.concat]. now rewrite <- !app_assoc.
Qed.

Lemma clean_lit : forall s, forallb (fun c => negb (Ascii.eqb c NUL)) (lit s) = true ->
  clean (lit s).
Proof.
  intros s H K. rewrite forallb_forall in H. apply H in K. now rewrite Ascii.eqb_refl in K.
Qed.

Lemma params_rest : forall d (sp : nat -> outcome text) js ss,
  Forall2 (fun j s => Part d j s (sp j)) js ss ->
  forall b len T, Rep b len T ->
  ((exists j, In j js /\ overflows h d j) /\ paramsTo sp false js (b, len) = UB) \/
  ((forall j, In j js -> ~ overflows h d j) /\
   exists b' len', paramsTo sp false js (b, len) = Ok (b', len') /\ Rep b' len' (T ++ tails ss)).
Proof.
  intros d sp js ss H. induction H as [|j s js ss [C P] _ IH]; intros b len T HR.
  - right. split; [intros j []|]. exists b, len. cbn. rewrite app_nil_r. auto.
  - cbn [paramsTo].
    destruct (put_ok b len T (lit ", ") HR ltac:(apply clean_lit; reflexivity)) as (b0 & E0 & R0).
    rewrite E0. cbn [bind]. destruct P as [[P ->]|[P ->]]; cbn [bind].
    + left. split; auto. exists j. split; auto. now left.
    + destruct (put_ok _ _ _ (firstn 255 s) R0 (clean_firstn _ _ C)) as (b1 & E1 & R1).
      rewrite E1. cbn [bind].
      apply rep_trunc1 in R1; auto.
      destruct (IH _ _ _ R1) as [[(j' & I & O) E]|[N (b2 & len2 & E & R2)]].
      * left. split; [|exact E]. exists j'. split; auto. now right.
      * right. split; [intros j' [<-|I]; auto|]. exists b2, len2. split; auto.
        unfold tails in *. cbn [map List.concat]. rewrite !app_assoc in *. exact R2.
Qed.

Lemma params_ok : forall d (sp : nat -> outcome text) js ss,
  Forall2 (fun j s => Part d j s (sp j)) js ss ->
  forall b len T, Rep b len T ->
  ((exists j, In j js /\ overflows h d j) /\ paramsTo sp true js (b, len) = UB) \/
  ((forall j, In j js -> ~ overflows h d j) /\
   exists b' len', paramsTo sp true js (b, len) = Ok (b', len') /\
     Rep b' len' (T ++ join (lit ", ") ss)).
Proof.
  intros d sp js ss H b len T HR. destruct H as [|j s js ss [C P] H].
  - right. split; [intros j []|]. exists b, len. cbn. rewrite app_nil_r. auto.
  - cbn [paramsTo bind]. rewrite join_tails.
    destruct P as [[P ->]|[P ->]]; cbn [bind].
    + left. split; auto. exists j. split; auto. now left.
    + destruct (put_ok _ _ _ (firstn 255 s) HR (clean_firstn _ _ C)) as (b1 & E1 & R1).
      rewrite E1. cbn [bind].
      apply rep_trunc1 in R1; auto.
      destruct (params_rest d sp js ss H _ _ _ R1) as [[(j' & I & O) E]|[N (b2 & len2 & E & R2)]].
      * left. split; [|exact E]. exists j'. split; auto. now right.
      * right. split; [intros j' [<-|I]; auto|]. exists b2, len2. split; auto.
        rewrite !app_assoc in *. exact R2.
Qed.

(** * The cases *)
Definition GoodFn (d f : nat) (s : text) : Prop :=
  clean s /\ exists N,
    ((exists j, viaFn h f j /\ overflows h (Nat.pred d) j) /\
     forall fuel, N <= fuel -> forall buf : text, List.length buf = 256 ->
       fnTo h (sub fuel (Nat.pred d)) f buf = UB) \/
    ((forall j, viaFn h f j -> ~ overflows h (Nat.pred d) j) /\
     forall fuel, N <= fuel -> forall buf : text, List.length buf = 256 ->
       exists b len, fnTo h (sub fuel (Nat.pred d)) f buf = Ok (b, len) /\ Rep b len s).

Definition GoodItem (d j : nat) (s : text) : Prop :=
  clean s /\
  ((d = 0 /\ s = lit "...") \/ exists d', d = S d' /\ spells h d' j s /\ Parts d' j s).

Definition GoodAll (d : nat) (js : list nat) (ss : list text) : Prop :=
  exists N, forall fuel, N <= fuel -> Forall2 (fun j s => Part d j s (sub fuel d j)) js ss.

Definition GoodOpt (d : nat) (use : bool) (j : nat) (s : option text) : Prop :=
  match s with
  | Some s => use = true /\ Parts d j s
  | None => use = false
  end.

Lemma ov_inv : forall d i, overflows h d i ->
  (exists d' r j s, d = S d' /\ nth_error h i = Some (mkNode None (KRef r j)) /\
     spells h d' j s /\ 255 < List.length (wordOf r) + List.length s) \/
  (exists j, inner h i j /\ overflows h (Nat.pred d) j) \/
  (exists d' j, d = S d' /\ itemOf h i j /\ overflows h d' j).
Proof.
  intros d i H. inversion H; subst.
  - left. eauto 10.
  - right. left. eauto.
  - right. right. eauto.
Qed.

Lemma inner_inv : forall i n j, nth_error h i = Some n -> inner h i j ->
  gname n = None /\
  match nk n with
  | KMap k _ => j = k
  | KExprList fs => In j fs
  | KFn _ _ _ => viaFn h i j
  | KClosure f => viaFn h f j
  | _ => False
  end.
Proof.
  intros i n j Hn H. inversion H; subst; same_node; cbn; auto.
Qed.

Lemma item_inv : forall i n j, nth_error h i = Some n -> itemOf h i j ->
  gname n = None /\
  match nk n with
  | KRef _ k | KArr _ k | KMap _ k => j = k
  | _ => False
  end.
Proof.
  intros i n j Hn H. inversion H; subst; same_node; cbn; auto.
Qed.

(** A type without parts does not overflow. *)
Lemma flat_no : forall d i n, nth_error h i = Some n ->
  (gname n <> None \/ match nk n with KWord _ _ _ | KEnum _ | KExprList [] => True | _ => False end) ->
  ~ overflows h d i.
Proof.
  intros d i n Hn Hf H.
  apply ov_inv in H as [(d' & r & j & s & _ & H & _)|[(j & H & _)|(d' & j & _ & H & _)]].
  - rewrite H in Hn. injection Hn as <-. cbn in Hf. destruct Hf; auto.
  - destruct (inner_inv _ _ _ Hn H) as [A B]. destruct Hf as [Hf|Hf]; [congruence|].
    destruct (nk n) as [| | | | | [|]| |]; auto.
  - destruct (item_inv _ _ _ Hn H) as [A B]. destruct Hf as [Hf|Hf]; [congruence|].
    destruct (nk n); auto.
Qed.

Lemma flat_good : forall d i n s, nth_error h i = Some n ->
  (gname n <> None \/ match nk n with KWord _ _ _ | KEnum _ | KExprList [] => True | _ => False end) ->
  clean s ->
  (forall fuel buf, spell junk h (S fuel) d i buf = let* bl := put (buf, 0) s in Ok (fst bl)) ->
  Good d i s.
Proof.
  intros d i n s Hn Hf C E. split; auto. exists 1. right.
  split; [exact (flat_no d i n Hn Hf)|].
  intros [|fuel] Hfu buf Hb; [lia|]. rewrite E.
  destruct (put_init buf s Hb C) as (b & -> & R). cbn [bind fst]. eauto.
Qed.

(** The item type is added, when its length is counted. *)
Lemma item_ok : forall d j s fuel, GoodItem d j s ->
  (forall d', d = S d' -> Part d' j s (sub fuel d' j)) ->
  forall b len T, Rep b len T ->
  ((exists d', d = S d' /\ overflows h d' j) /\
   (let* t := if Nat.ltb 0 d then sub fuel (Nat.pred d) j else Ok (lit "...") in
    strncat b t (SIZE - len - 1)) = UB) \/
  ((forall d', d = S d' -> ~ overflows h d' j) /\
   exists b' len', (let* t := if Nat.ltb 0 d then sub fuel (Nat.pred d) j else Ok (lit "...") in
    strncat b t (SIZE - len - 1)) = Ok b' /\ Rep b' len' (T ++ s)).
Proof.
  intros d j s fuel [C G] HP b len T HR. destruct G as [[-> ->]|(d' & -> & _ & _)].
  - right. split; [discriminate|]. cbn [Nat.ltb Nat.leb bind].
    destruct (cat_ok b len T (lit "...") HR C) as (b' & E & len' & R).
    change (firstn 255 (lit "...")) with (lit "...") in E. eauto.
  - cbn [Nat.ltb Nat.leb Nat.pred]. destruct (HP d' eq_refl) as [_ [[O ->]|[O ->]]]; cbn [bind].
    + left. eauto.
    + right. split; [intros d'' K; injection K as <-; auto|].
      destruct (cat_ok b len T s HR C) as (b' & E & len' & R). eauto.
Qed.

Lemma item_parts : forall d j s, GoodItem d j s ->
  exists N, forall fuel, N <= fuel -> forall d', d = S d' -> Part d' j s (sub fuel d' j).
Proof.
  intros d j s [C G]. destruct G as [[-> ->]|(d' & -> & _ & N & H)].
  - exists 0. discriminate.
  - exists N. intros fuel Hf d'' K. injection K as <-. auto.
Qed.

Lemma clean_dec : forall n, clean (dec n).
Proof.
  intros n. unfold dec. generalize (Nat.to_uint n) as u.
  assert (G : forall u, clean (lit (DecimalString.NilEmpty.string_of_uint u))).
  { induction u as [|u IH|u IH|u IH|u IH|u IH|u IH|u IH|u IH|u IH|u IH]; cbn;
      try (intros [K|K]; [discriminate K|exact (IH K)]). intros []. }
  intros u. destruct u; try apply G.
  unfold DecimalString.NilZero.string_of_uint. apply clean_lit. reflexivity.
Qed.

Lemma fn_node : forall f j, viaFn h f j -> exists g m ps r, nth_error h f = Some (mkNode g (KFn m ps r)).
Proof.
  intros f j H. inversion H; subst; eauto.
Qed.

(** Functions. *)
Lemma fn_ok : forall d f g m p ps r n rs ss res,
  nth_error h f = Some (mkNode g (KFn m (p :: ps) r)) -> nth_error h r = Some n ->
  GoodOpt (Nat.pred d) m p rs -> GoodAll (Nat.pred d) (written (p :: ps) n) ss ->
  GoodOpt (Nat.pred d) (negb (isVoid (nk n))) r res ->
  GoodFn d f (fnText rs ss res).
Proof.
  intros d f g m p ps r n rs ss res Hf Hr Grcv (N2 & Gall) Gres.
  assert (Crcv : clean (match rs with Some s => s ++ lit ") (" | None => [] end)).
  { destruct rs as [s|]; [|intros []]. destruct Grcv as (_ & N & H).
    apply clean_app. split; [apply (H N); lia|apply clean_lit; reflexivity]. }
  assert (Cres : clean (match res with Some s => lit ": " ++ s | None => [] end)).
  { destruct res as [s|]; [|intros []]. destruct Gres as (_ & N & H).
    apply clean_app. split; [apply clean_lit; reflexivity|apply (H N); lia]. }
  assert (Call : clean (join (lit ", ") ss)).
  { specialize (Gall N2 (le_n _)).
    assert (Cs : Forall clean ss).
    { clear -Gall. induction Gall as [|? ? ? ? [A _] ]; constructor; auto. }
    clear -Cs. destruct ss as [|s ss]; [intros []|]. rewrite join_tails.
    inversion Cs; subst. apply clean_app. split; auto. clear -H2.
    unfold tails. induction H2; cbn [map List.concat]; [intros []|].
    apply clean_app. split; auto. apply clean_app. split; auto.
    apply clean_lit. reflexivity. }
  assert (CC : clean (fnText rs ss res)).
  { unfold fnText. repeat (apply clean_app; split; auto); apply clean_lit; reflexivity. }
  split; auto.
  assert (HW : firstn (List.length (p :: ps) - (if composite (nk n) then 1 else 0) - 1)
                 (tl (p :: ps)) = written (p :: ps) n).
  { unfold written. cbn [tl List.length]. destruct (composite (nk n)).
    - rewrite removelast_firstn_len. f_equal. lia.
    - rewrite firstn_all2; auto. lia. }
  assert (HVp : forall j, In j (written (p :: ps) n) -> viaFn h f j).
  { intros j K. econstructor 2; eauto. }
  assert (Hinv : forall j, viaFn h f j ->
            (m = true /\ j = p) \/ In j (written (p :: ps) n) \/
            (isVoid (nk n) = false /\ j = r)).
  { intros j K. inversion K; subst; same_node; auto. }
  (* the receiver *)
  assert (S1 : exists N, 
    ((m = true /\ overflows h (Nat.pred d) p) /\ forall fuel, N <= fuel ->
       sub fuel (Nat.pred d) p = UB) \/
    ((m = true -> ~ overflows h (Nat.pred d) p) /\ forall fuel, N <= fuel ->
       match rs with Some s => m = true /\ sub fuel (Nat.pred d) p = Ok (firstn 255 s)
       | None => m = false end)).
  { destruct rs as [s|]; cbn in Grcv.
    - destruct Grcv as (-> & N & H). exists N. destruct (H N (le_n _)) as (_ & [[O _]|[O _]]).
      + left. split; auto. intros fuel K. destruct (H fuel K) as (_ & [[_ E]|[O' _]]); tauto.
      + right. split; auto. intros fuel K. split; auto.
        destruct (H fuel K) as (_ & [[O' _]|[_ E]]); tauto.
    - subst m. exists 0. right. split; auto. discriminate. }
  (* the result *)
  assert (S3 : exists N, 
    ((isVoid (nk n) = false /\ overflows h (Nat.pred d) r) /\ forall fuel, N <= fuel ->
       sub fuel (Nat.pred d) r = UB) \/
    ((isVoid (nk n) = false -> ~ overflows h (Nat.pred d) r) /\ forall fuel, N <= fuel ->
       match res with Some s => isVoid (nk n) = false /\ sub fuel (Nat.pred d) r = Ok (firstn 255 s)
       | None => isVoid (nk n) = true end)).
  { destruct res as [s|]; cbn in Gres.
    - destruct Gres as (V & N & H). apply negb_true_iff in V. rewrite V. exists N.
      destruct (H N (le_n _)) as (_ & [[O _]|[O _]]).
      + left. split; auto. intros fuel K. destruct (H fuel K) as (_ & [[_ E]|[O' _]]); tauto.
      + right. split; auto. intros fuel K. split; auto.
        destruct (H fuel K) as (_ & [[O' _]|[_ E]]); tauto.
    - apply negb_false_iff in Gres. rewrite Gres. exists 0. right. split; auto. discriminate. }
  destruct S1 as (N1 & S1). destruct S3 as (N3 & S3).
  exists (N1 + N2 + N3).
  unfold fnTo. rewrite Hf, Hr, structured_eq, HW.
  assert (D : (exists j, viaFn h f j /\ overflows h (Nat.pred d) j) /\
      (forall fuel, N1 + N2 + N3 <= fuel -> forall buf : text, List.length buf = 256 ->
       fnTo h (sub fuel (Nat.pred d)) f buf = UB) \/
      ((forall j, viaFn h f j -> ~ overflows h (Nat.pred d) j) /\
       forall fuel, N1 + N2 + N3 <= fuel -> forall buf : text, List.length buf = 256 ->
       exists b len, fnTo h (sub fuel (Nat.pred d)) f buf = Ok (b, len) /\
         Rep b len (fnText rs ss res))).
  2: { unfold fnTo in D. rewrite Hf, Hr, structured_eq, HW in D. exact D. }
  unfold fnTo. rewrite Hf, Hr, structured_eq, HW.
  destruct S1 as [[[-> O1] S1]|[O1 S1]].
  { left. split; [exists p; split; auto; econstructor 1; eauto|].
    intros fuel K buf Hb.
    destruct (put_init buf (lit "fn (") Hb ltac:(apply clean_lit; reflexivity)) as (b1 & -> & R1).
    cbn [bind]. rewrite S1 by lia. reflexivity. }
  assert (S1' : forall fuel, N1 + N2 + N3 <= fuel -> forall buf : text, List.length buf = 256 ->
    exists b len, (let* bl := put (buf, 0) (lit "fn (") in
      if m then let* t := sub fuel (Nat.pred d) p in put bl (t ++ lit ") (") else Ok bl) =
      Ok (b, len) /\
      Rep b len (lit "fn (" ++ match rs with Some s => s ++ lit ") (" | None => [] end)).
  { intros fuel K buf Hb.
    destruct (put_init buf (lit "fn (") Hb ltac:(apply clean_lit; reflexivity)) as (b1 & -> & R1).
    cbn [bind]. specialize (S1 fuel ltac:(lia)). destruct rs as [s|].
    - destruct S1 as [-> ->]. cbn [bind]. apply clean_app in Crcv. destruct Crcv as [Cs _].
      destruct (put_ok _ _ _ (firstn 255 s ++ lit ") (") R1) as (b2 & E2 & R2).
      { apply clean_app. split; [now apply clean_firstn|apply clean_lit; reflexivity]. }
      apply rep_trunc in R2; auto. eauto.
    - rewrite S1. rewrite app_nil_r. eauto. }
  assert (S2 : (exists j, In j (written (p :: ps) n) /\ overflows h (Nat.pred d) j) \/
               (forall j, In j (written (p :: ps) n) -> ~ overflows h (Nat.pred d) j)).
  { destruct (S1' (N1 + N2 + N3) (le_n _) junk Hjunk) as (b & len & _ & R).
    destruct (params_ok _ _ _ _ (Gall (N1 + N2 + N3) ltac:(lia)) b len _ R) as [[A _]|[A _]]; auto. }
  assert (B : forall fuel (buf : text) X,
     (let* bl := put (buf, 0) (lit "fn (") in
      let* bl := if m then let* t := sub fuel (Nat.pred d) p in put bl (t ++ lit ") (")
                 else Ok bl in (X bl : outcome (text * nat))) =
     (let* bl := (let* bl := put (buf, 0) (lit "fn (") in
      if m then let* t := sub fuel (Nat.pred d) p in put bl (t ++ lit ") (") else Ok bl) in X bl)).
  { intros. destruct (put (buf, 0) (lit "fn (")); reflexivity. }
  destruct S2 as [(j & I & O)|S2].
  { left. split; [exists j; auto|]. intros fuel K buf Hb. rewrite B.
    destruct (S1' fuel K buf Hb) as (b & len & -> & R). cbn [bind].
    destruct (params_ok _ _ _ _ (Gall fuel ltac:(lia)) b len _ R) as [[_ E]|[A _]].
    - rewrite E. reflexivity.
    - exfalso. exact (A j I O). }
  assert (S2' : forall fuel, N1 + N2 + N3 <= fuel -> forall buf : text, List.length buf = 256 ->
    exists b len, (let* bl := (let* bl := put (buf, 0) (lit "fn (") in
      if m then let* t := sub fuel (Nat.pred d) p in put bl (t ++ lit ") (") else Ok bl) in
      let* bl := paramsTo (sub fuel (Nat.pred d)) true (written (p :: ps) n) bl in
      put bl (lit ")")) = Ok (b, len) /\
      Rep b len (lit "fn (" ++ match rs with Some s => s ++ lit ") (" | None => [] end ++
        join (lit ", ") ss ++ lit ")")).
  { intros fuel K buf Hb. destruct (S1' fuel K buf Hb) as (b & len & -> & R). cbn [bind].
    destruct (params_ok _ _ _ _ (Gall fuel ltac:(lia)) b len _ R) as [[(j & I & O) _]|[_ A]].
    { exfalso. exact (S2 j I O). }
    destruct A as (b1 & len1 & -> & R1). cbn [bind].
    destruct (put_ok _ _ _ (lit ")") R1 ltac:(apply clean_lit; reflexivity)) as (b2 & E2 & R2).
    rewrite E2. exists b2. eexists. split; [reflexivity|].
    rewrite <- !app_assoc in R2. exact R2. }
  assert (B2 : forall fuel (buf : text) X,
     (let* bl := put (buf, 0) (lit "fn (") in
      let* bl := if m then let* t := sub fuel (Nat.pred d) p in put bl (t ++ lit ") (")
                 else Ok bl in
      let* bl := paramsTo (sub fuel (Nat.pred d)) true (written (p :: ps) n) bl in
      let* bl := put bl (lit ")") in (X bl : outcome (text * nat))) =
     (let* bl := (let* bl := (let* bl := put (buf, 0) (lit "fn (") in
      if m then let* t := sub fuel (Nat.pred d) p in put bl (t ++ lit ") (") else Ok bl) in
      let* bl := paramsTo (sub fuel (Nat.pred d)) true (written (p :: ps) n) bl in
      put bl (lit ")")) in X bl)).
  { intros. rewrite B. destruct (let* bl := put (buf, 0) (lit "fn (") in
      if m then _ else Ok bl) as [bl| |]; try reflexivity. cbn [bind].
    destruct (paramsTo _ _ _ bl); reflexivity. }
  destruct S3 as [[[V O3] S3]|[O3 S3]].
  { left. split; [exists r; split; auto; econstructor 3; eauto|].
    intros fuel K buf Hb. rewrite B2. destruct (S2' fuel K buf Hb) as (b & len & -> & R).
    cbn [bind]. rewrite V, S3 by lia. reflexivity. }
  right. split.
  { intros j Hj O. destruct (Hinv j Hj) as [[Em ->]|[I|[V ->]]]; [exact (O1 Em O)|exact (S2 j I O)|exact (O3 V O)]. }
  intros fuel K buf Hb. rewrite B2. destruct (S2' fuel K buf Hb) as (b & len & -> & R).
  cbn [bind]. specialize (S3 fuel ltac:(lia)). unfold fnText. destruct res as [s|].
  - destruct S3 as [-> ->]. cbn [bind]. apply clean_app in Cres. destruct Cres as [_ Cs].
    destruct (put_ok _ _ _ (lit ": " ++ firstn 255 s) R) as (b2 & E2 & R2).
    { apply clean_app. split; [apply clean_lit; reflexivity|now apply clean_firstn]. }
    rewrite E2. exists b2. eexists. split; [reflexivity|].
    rewrite app_assoc in R2. apply rep_trunc1 in R2; auto.
    rewrite <- !app_assoc in R2. exact R2.
  - rewrite S3. exists b, len. rewrite app_nil_r. auto.
Qed.

Lemma spell_good :
  (forall d i s, spells h d i s -> Good d i s) /\
  (forall d i s, items h d i s -> GoodItem d i s) /\
  (forall d l s, spellsAll h d l s -> GoodAll d l s) /\
  (forall d i s, spellsFn h d i s -> GoodFn d i s) /\
  (forall d m p s, spellsRcv h d m p s -> GoodOpt d m p s) /\
  (forall d n r s, spellsRes h d n r s -> GoodOpt d (negb (isVoid (nk n))) r s).
Proof.
  apply spells_all.
  - intros d i n s H G. eapply flat_good; [exact H|left; congruence| |].
    + apply Hwf in H as [_ C]. now rewrite G in C.
    + intros. cbn [spell]. rewrite H, G. reflexivity.
  - intros d i w v t H. eapply flat_good; [exact H|right; exact I| |].
    + apply Hwf in H as [C _]. exact C.
    + intros. cbn [spell]. rewrite H. reflexivity.
  - intros d i w H. eapply flat_good; [exact H|right; exact I| |].
    + apply Hwf in H as [C _]. cbn in C. apply clean_app.
      split; [apply clean_lit; reflexivity|]. apply clean_app.
      split; [exact C|apply clean_lit; reflexivity].
    + intros. cbn [spell]. rewrite H. reflexivity.
  - (* pointers *)
    intros d i r j s H Hi G. destruct (item_parts _ _ _ G) as (N & HN).
    pose proof G as G0. destruct G as [C G].
    assert (Cw : clean (wordOf r)) by (destruct r; apply clean_lit; reflexivity).
    assert (HW : forall fuel (buf : text), List.length buf = 256 -> exists b,
        Rep b (List.length (wordOf r)) (wordOf r) /\
        spell junk h (S fuel) d i buf =
        let* t := if Nat.ltb 0 d then sub fuel (Nat.pred d) j else Ok (lit "...") in
        strncat b t (SIZE - 0 - 1)).
    { intros fuel buf Hb. cbn [spell]. rewrite H. cbn [gname nk]. change refWord with wordOf.
      destruct (put_init buf (wordOf r) Hb Cw) as (b & -> & R). exists b. split; auto. }
    split; [apply clean_app; auto|]. exists (S N).
    assert (Hov : overflows h d i -> exists d', d = S d' /\ spells h d' j s /\
              (255 < List.length (wordOf r) + List.length s \/ overflows h d' j)).
    { intros O. apply ov_inv in O as [(d' & r' & j' & s' & -> & K & Ks & Kl)|[(j' & K & _)|(d' & j' & -> & K & O)]].
      - rewrite H in K. injection K as <- <-. exists d'. split; auto.
        inversion Hi; subst. split; auto. left.
        match goal with A : spells h d' j s |- _ =>
          rewrite (proj1 (spells_det h) _ _ _ A _ Ks) end. exact Kl.
      - destruct (inner_inv _ _ _ H K) as [_ []].
      - destruct (item_inv _ _ _ H K) as [_ ->]. exists d'. split; auto.
        inversion Hi; subst. auto. }
    destruct G as [[-> ->]|(d' & -> & Ks & _)].
    + right. split; [intros O; destruct (Hov O) as (? & ? & _); discriminate|].
      intros [|fuel] Hfu buf Hb; [lia|]. destruct (HW fuel buf Hb) as (b & R & ->).
      cbn [Nat.ltb Nat.leb bind].
      destruct (cat_word b r (lit "...") R C) as [[A _]|[_ (b' & E & len & R')]].
      { destruct r; cbn in A; lia. }
      change (firstn 255 (lit "...")) with (lit "...") in E. eauto.
    + destruct (HN N (le_n _) d' eq_refl) as [_ [[O _]|[O _]]].
      * left. split; [apply ov_item with j; auto; econstructor; eauto|].
        intros [|fuel] Hfu buf Hb; [lia|]. destruct (HW fuel buf Hb) as (b & R & ->).
        cbn [Nat.ltb Nat.leb bind Nat.pred].
        destruct (HN fuel ltac:(lia) d' eq_refl) as [_ [[_ ->]|[O' _]]]; [reflexivity|tauto].
      * destruct (le_lt_dec (List.length (wordOf r) + List.length s) 255) as [L|L].
        -- right. split.
           { intros O'. destruct (Hov O') as (d'' & E & _ & [K|K]); [lia|].
             injection E as <-. auto. }
           intros [|fuel] Hfu buf Hb; [lia|]. destruct (HW fuel buf Hb) as (b & R & ->).
           cbn [Nat.ltb Nat.leb bind Nat.pred].
           destruct (HN fuel ltac:(lia) d' eq_refl) as [_ [[O' _]|[_ ->]]]; [tauto|].
           cbn [bind].
           destruct (cat_word b r s R C) as [[A _]|[_ (b' & E & len & R')]]; [lia|eauto].
        -- left. split; [econstructor 1; eauto|].
           intros [|fuel] Hfu buf Hb; [lia|]. destruct (HW fuel buf Hb) as (b & R & ->).
           cbn [Nat.ltb Nat.leb bind Nat.pred].
           destruct (HN fuel ltac:(lia) d' eq_refl) as [_ [[O' _]|[_ ->]]]; [tauto|].
           cbn [bind].
           destruct (cat_word b r s R C) as [[_ A]|[A _]]; [exact A|lia].
  - (* arrays *)
    intros d i m j s H Hi G. destruct (item_parts _ _ _ G) as (N & HN).
    assert (Cw : clean (lit "[" ++ dec m ++ lit "]")).
    { apply clean_app. split; [apply clean_lit; reflexivity|].
      apply clean_app. split; [apply clean_dec|apply clean_lit; reflexivity]. }
    assert (HT : lit "[" ++ dec m ++ lit "]" ++ s = (lit "[" ++ dec m ++ lit "]") ++ s).
    { now rewrite <- !app_assoc. }
    rewrite HT. split; [apply clean_app; split; [exact Cw|exact (proj1 G)]|]. exists (S N).
    assert (HW : forall fuel (buf : text), List.length buf = 256 -> exists b len,
        Rep b len (lit "[" ++ dec m ++ lit "]") /\
        spell junk h (S fuel) d i buf =
        let* t := if Nat.ltb 0 d then sub fuel (Nat.pred d) j else Ok (lit "...") in
        strncat b t (SIZE - len - 1)).
    { intros fuel buf Hb. cbn [spell]. rewrite H. cbn [gname nk].
      destruct (put_init buf _ Hb Cw) as (b & -> & R). exists b. eexists. split; eauto. }
    assert (Hov : overflows h d i -> exists d', d = S d' /\ overflows h d' j).
    { intros O. apply ov_inv in O as [(d' & r' & j' & s' & -> & K & Ks & Kl)|[(j' & K & _)|(d' & j' & -> & K & O)]].
      - congruence.
      - destruct (inner_inv _ _ _ H K) as [_ []].
      - destruct (item_inv _ _ _ H K) as [_ ->]. eauto. }
    destruct (HW N junk Hjunk) as (b0 & l0 & R0 & _).
    destruct (item_ok d j s N G (HN N (le_n _)) b0 l0 _ R0) as [[(d' & -> & O) _]|[O _]].
    + left. split; [apply ov_item with j; auto; econstructor 2; eauto|].
      intros [|fuel] Hfu buf Hb; [lia|]. destruct (HW fuel buf Hb) as (b & l & R & ->).
      destruct (item_ok _ j s fuel G (HN fuel ltac:(lia)) b l _ R) as [[_ E]|[K _]]; auto.
      exfalso. exact (K d' eq_refl O).
    + right. split; [intros K; destruct (Hov K) as (d' & E & O'); exact (O d' E O')|].
      intros [|fuel] Hfu buf Hb; [lia|]. destruct (HW fuel buf Hb) as (b & l & R & ->).
      destruct (item_ok _ j s fuel G (HN fuel ltac:(lia)) b l _ R) as [[(d' & E & O') _]|[_ K]]; auto.
      exfalso. exact (O d' E O').
  - (* maps *)
    intros d i k j t s H Kk IHk Hi G. destruct (item_parts _ _ _ G) as (N & HN).
    apply good_part in IHk. destruct IHk as (Nk & HK).
    assert (Ct : clean t) by exact (proj1 (HK Nk (le_n _))).
    assert (HT : lit "map[" ++ t ++ lit "]" ++ s = (lit "map[" ++ t ++ lit "]") ++ s).
    { now rewrite <- !app_assoc. }
    assert (Cw : clean (lit "map[" ++ t ++ lit "]")).
    { apply clean_app. split; [apply clean_lit; reflexivity|].
      apply clean_app. split; [exact Ct|apply clean_lit; reflexivity]. }
    rewrite HT. split; [apply clean_app; split; [exact Cw|exact (proj1 G)]|].
    exists (S (N + Nk)).
    assert (Hov : overflows h d i -> overflows h (Nat.pred d) k \/ exists d', d = S d' /\ overflows h d' j).
    { intros O. apply ov_inv in O as [(d' & r' & j' & s' & -> & K & Ks & Kl)|[(j' & K & O)|(d' & j' & -> & K & O)]].
      - congruence.
      - destruct (inner_inv _ _ _ H K) as [_ ->]. auto.
      - destruct (item_inv _ _ _ H K) as [_ ->]. eauto. }
    destruct (HK Nk (le_n _)) as [_ [[Ok_ _]|[Ok_ _]]].
    { left. split; [apply ov_inner with k; auto; econstructor 1; eauto|].
      intros [|fuel] Hfu buf Hb; [lia|]. cbn [spell]. rewrite H. cbn [gname nk].
      fold (sub fuel (Nat.pred d) k).
      destruct (HK fuel ltac:(lia)) as [_ [[_ ->]|[O' _]]]; [reflexivity|tauto]. }
    assert (HW : forall fuel (buf : text), N + Nk <= fuel -> List.length buf = 256 -> exists b len,
        Rep b len (lit "map[" ++ t ++ lit "]") /\
        spell junk h (S fuel) d i buf =
        let* t := if Nat.ltb 0 d then sub fuel (Nat.pred d) j else Ok (lit "...") in
        strncat b t (SIZE - len - 1)).
    { intros fuel buf Hfu Hb. cbn [spell]. rewrite H. cbn [gname nk].
      fold (sub fuel (Nat.pred d) k).
      destruct (HK fuel ltac:(lia)) as [_ [[O' _]|[_ ->]]]; [tauto|]. cbn [bind].
      destruct (put_init buf (lit "map[" ++ firstn 255 t ++ lit "]") Hb) as (b & -> & R).
      { apply clean_app. split; [apply clean_lit; reflexivity|].
        apply clean_app. split; [now apply clean_firstn|apply clean_lit; reflexivity]. }
      apply rep_trunc in R; auto. exists b. eexists. split; eauto. }
    destruct (HW (N + Nk) junk (le_n _) Hjunk) as (b0 & l0 & R0 & _).
    destruct (item_ok d j s (N + Nk) G (HN (N + Nk) ltac:(lia)) b0 l0 _ R0) as [[(d' & -> & O) _]|[O _]].
    + left. split; [apply ov_item with j; auto; econstructor 3; eauto|].
      intros [|fuel] Hfu buf Hb; [lia|]. destruct (HW fuel buf ltac:(lia) Hb) as (b & l & R & ->).
      destruct (item_ok _ j s fuel G (HN fuel ltac:(lia)) b l _ R) as [[_ E]|[K _]]; auto.
      exfalso. exact (K d' eq_refl O).
    + right. split; [intros K; destruct (Hov K) as [K'|(d' & E & O')]; [auto|exact (O d' E O')]|].
      intros [|fuel] Hfu buf Hb; [lia|]. destruct (HW fuel buf ltac:(lia) Hb) as (b & l & R & ->).
      destruct (item_ok _ j s fuel G (HN fuel ltac:(lia)) b l _ R) as [[(d' & E & O') _]|[_ K]]; auto.
      exfalso. exact (O d' E O').
  - intros d i H. eapply flat_good; [exact H|right; exact I|apply clean_lit; reflexivity|].
    intros. cbn [spell]. rewrite H. reflexivity.
  - (* lists *)
    intros d i f fs ss H _ (N & G).
    assert (Cs : clean (List.concat (map (fun s => s ++ lit " ") ss))).
    { specialize (G N (le_n _)). clear -G.
      induction G as [|? ? ? ? [A _] _ IH]; cbn [map List.concat]; [intros []|].
      apply clean_app. split; auto. apply clean_app. split; auto. apply clean_lit. reflexivity. }
    split.
    { apply clean_app. split; [apply clean_lit; reflexivity|].
      apply clean_app. split; [exact Cs|apply clean_lit; reflexivity]. }
    exists (S N).
    assert (Hov : overflows h d i -> exists j, In j (f :: fs) /\ overflows h (Nat.pred d) j).
    { intros O. apply ov_inv in O as [(d' & r' & j' & s' & -> & K & Ks & Kl)|[(j' & K & O)|(d' & j' & -> & K & O)]].
      - congruence.
      - destruct (inner_inv _ _ _ H K) as [_ K2]. exists j'. split; [exact K2|exact O].
      - destruct (item_inv _ _ _ H K) as [_ []]. }
    assert (HW : forall fuel (buf : text), List.length buf = 256 -> exists b len,
        Rep b len (lit "{ ") /\
        spell junk h (S fuel) d i buf =
        let* bl := fieldsTo (sub fuel (Nat.pred d)) (f :: fs) (b, len) in
        let* bl := put bl (lit "}") in Ok (fst bl)).
    { intros fuel buf Hb. cbn [spell]. rewrite H. cbn [gname nk].
      destruct (put_init buf (lit "{ ") Hb ltac:(apply clean_lit; reflexivity)) as (b & -> & R).
      exists b. eexists. split; eauto. }
    destruct (HW N junk Hjunk) as (b0 & l0 & R0 & _).
    destruct (fields_ok _ _ _ _ (G N (le_n _)) b0 l0 _ R0) as [[(j & I & O) _]|[O _]].
    + left. split; [apply ov_inner with j; auto; econstructor 2; eauto|].
      intros [|fuel] Hfu buf Hb; [lia|]. destruct (HW fuel buf Hb) as (b & l & R & ->).
      destruct (fields_ok _ _ _ _ (G fuel ltac:(lia)) b l _ R) as [[_ ->]|[K _]]; auto.
      exfalso. exact (K j I O).
    + right. split; [intros K; destruct (Hov K) as (j & I & O'); exact (O j I O')|].
      intros [|fuel] Hfu buf Hb; [lia|]. destruct (HW fuel buf Hb) as (b & l & R & ->).
      destruct (fields_ok _ _ _ _ (G fuel ltac:(lia)) b l _ R) as [[(j & I & O') _]|[_ (b1 & l1 & -> & R1)]].
      { exfalso. exact (O j I O'). }
      cbn [bind]. destruct (put_ok _ _ _ (lit "}") R1 ltac:(apply clean_lit; reflexivity)) as (b2 & -> & R2).
      cbn [bind fst]. rewrite <- app_assoc in R2. eauto.
  - (* functions *)
    intros d i m ps r s H _ [C (N & G)]. split; auto. exists (S N).
    assert (HW : forall fuel buf, spell junk h (S fuel) d i buf =
        let* bl := fnTo h (sub fuel (Nat.pred d)) i buf in Ok (fst bl)).
    { intros. cbn [spell]. rewrite H. reflexivity. }
    destruct G as [[(j & V & O) E]|[O E]].
    + left. split; [apply ov_inner with j; auto; econstructor 3; eauto|].
      intros [|fuel] Hfu buf Hb; [lia|]. rewrite HW, E by (auto; lia). reflexivity.
    + right. split.
      { intros K. apply ov_inv in K as [(d' & r' & j' & s' & -> & K & Ks & Kl)|[(j' & K & O')|(d' & j' & -> & K & O')]].
        - congruence.
        - destruct (inner_inv _ _ _ H K) as [_ K2]. exact (O j' K2 O').
        - destruct (item_inv _ _ _ H K) as [_ []]. }
      intros [|fuel] Hfu buf Hb; [lia|]. rewrite HW.
      destruct (E fuel ltac:(lia) buf Hb) as (b & l & -> & R). cbn [bind fst]. eauto.
  - (* closures *)
    intros d i f s H _ [C (N & G)].
    split; [apply clean_app; split; [exact C|apply clean_lit; reflexivity]|]. exists (S N).
    assert (HW : forall fuel buf, spell junk h (S fuel) d i buf =
        let* bl := fnTo h (sub fuel (Nat.pred d)) f buf in
        let* bl := put bl (lit " |...|") in Ok (fst bl)).
    { intros. cbn [spell]. rewrite H. reflexivity. }
    destruct G as [[(j & V & O) E]|[O E]].
    + left. split; [apply ov_inner with j; auto; econstructor 4; eauto|].
      intros [|fuel] Hfu buf Hb; [lia|]. rewrite HW, E by (auto; lia). reflexivity.
    + right. split.
      { intros K. apply ov_inv in K as [(d' & r' & j' & s' & -> & K & Ks & Kl)|[(j' & K & O')|(d' & j' & -> & K & O')]].
        - congruence.
        - destruct (inner_inv _ _ _ H K) as [_ K2]. exact (O j' K2 O').
        - destruct (item_inv _ _ _ H K) as [_ []]. }
      intros [|fuel] Hfu buf Hb; [lia|]. rewrite HW.
      destruct (E fuel ltac:(lia) buf Hb) as (b & l & -> & R). cbn [bind].
      destruct (put_ok _ _ _ (lit " |...|") R ltac:(apply clean_lit; reflexivity)) as (b2 & -> & R2).
      cbn [bind fst]. eauto.
  - intros j. split; [apply clean_lit; reflexivity|]. now left.
  - intros d j s K G. split; [exact (proj1 G)|]. right. exists d.
    split; auto. split; auto. now apply good_part.
  - intros d. exists 0. constructor.
  - intros d j js s ss _ G _ (N & H). apply good_part in G. destruct G as (M & G).
    exists (M + N). intros fuel K. constructor; [apply G; lia|apply H; lia].
  - intros d f g m p ps r n rs ss res Hf Hr _ G1 _ G2 _ G3. eapply fn_ok; eauto.
  - intros d p. reflexivity.
  - intros d p s _ G. split; auto. now apply good_part.
  - intros d n r K. cbn. now rewrite K.
  - intros d n r s K _ G. cbn. rewrite K. split; auto. now apply good_part.
Qed.

(** The text that is seen. *)
Theorem typeSpelling_exact : forall i s, spells h 10 i s ->
  exists N,
    (overflows h 10 i /\ forall fuel, N <= fuel -> typeSpelling junk h fuel i = UB) \/
    (~ overflows h 10 i /\ forall fuel, N <= fuel ->
       typeSpelling junk h fuel i = Ok (firstn 255 s)).
Proof.
  intros i s H. apply spell_good in H. apply good_part in H. destruct H as (N & H).
  exists N. destruct (H N (le_n _)) as [_ [[O _]|[O _]]].
  - left. split; auto. intros fuel K. destruct (H fuel K) as [_ [[_ E]|[O' _]]]; [exact E|tauto].
  - right. split; auto. intros fuel K. destruct (H fuel K) as [_ [[O' _]|[_ E]]]; [tauto|exact E].
Qed.

(** * Texts that fit *)
Lemma join_len : forall ss s sep, In s ss -> List.length s <= List.length (join sep ss).
Proof.
  induction ss as [|t ss IH]; intros s sep [].
  - subst. destruct ss; cbn [join]; [lia|]. rewrite app_length. lia.
  - destruct ss as [|u ss]; [destruct H|].
    specialize (IH s sep H). change (join sep (t :: u :: ss)) with (t ++ sep ++ join sep (u :: ss)).
    rewrite !app_length. lia.
Qed.

Lemma all_in : forall d js ss, spellsAll h d js ss -> forall j, In j js ->
  exists s, In s ss /\ spells h d j s.
Proof.
  intros d js. induction js as [|k js IH]; intros ss H j []; inversion H; subst.
  - exists s. split; auto. now left.
  - destruct (IH _ H6 _ H0) as (s' & A & B). exists s'. split; auto. now right.
Qed.

Lemma fn_len : forall d f s j, spellsFn h d f s -> viaFn h f j ->
  exists t, spells h (Nat.pred d) j t /\ List.length t <= List.length s.
Proof.
  intros d f s j H V. inversion H; subst. unfold fnText. inversion V; subst; same_node.
  - match goal with A : spellsRcv _ _ true _ _ |- _ => inversion A; subst end.
    eexists. split; [eassumption|]. rewrite !app_length. lia.
  - match goal with A : spellsAll _ _ _ _, I : In j _ |- _ =>
      destruct (all_in _ _ _ A _ I) as (t & I' & B) end.
    exists t. split; auto.
    pose proof (join_len _ _ (lit ", ") I'). rewrite !app_length. lia.
  - match goal with A : spellsRes _ _ _ _ _ |- _ => inversion A; subst end; [congruence|].
    eexists. split; [eassumption|]. rewrite !app_length. lia.
Qed.

Lemma inner_len : forall d i s j, spells h d i s -> inner h i j ->
  exists t, spells h (Nat.pred d) j t /\ List.length t <= List.length s.
Proof.
  intros d i s j H V. inversion V; subst; inversion H; subst; same_node; cbn [gname] in *;
    try congruence; try discriminate.
  - match goal with A : mkNode _ _ = mkNode _ _ |- _ => injection A as <- <- | _ => idtac end.
    eexists. split; [eassumption|]. rewrite !app_length. lia.
  - destruct H1.
  - match goal with A : spellsAll _ _ _ _ |- _ => destruct (all_in _ _ _ A _ H1) as (t & I & B) end.
    exists t. split; auto.
    assert (L : List.length t <= List.length (List.concat (map (fun s => s ++ lit " ") ss))).
    { clear -I. induction ss as [|u ss IH]; [destruct I|]. cbn [map List.concat].
      rewrite !app_length. destruct I as [->|I]; [lia|]. specialize (IH I). lia. }
    rewrite !app_length. lia.
  - eapply fn_len; eauto.
  - match goal with A : spellsFn _ _ _ _ |- _ => destruct (fn_len _ _ _ _ A H1) as (t & I & B) end.
    exists t. split; auto. rewrite app_length. lia.
Qed.

Lemma item_len : forall d i s j, spells h (S d) i s -> itemOf h i j ->
  exists t, spells h d j t /\ List.length t <= List.length s.
Proof.
  intros d i s j H V. inversion V; subst; inversion H; subst; same_node; cbn [gname] in *;
    try congruence; try discriminate;
    match goal with A : items _ _ _ _ |- _ => inversion A; subst end;
    eexists; (split; [eassumption|]); rewrite !app_length; lia.
Qed.

Lemma overflow_long : forall d i, overflows h d i -> forall s, spells h d i s ->
  255 < List.length s.
Proof.
  intros d i H. induction H as [d i r j t Hn Ht L|d i j V O IH|d i j V O IH]; intros s Hs.
  - inversion Hs; subst; same_node; cbn [gname] in *; try congruence; try discriminate.
    match goal with A : items _ _ _ _ |- _ => inversion A; subst end.
    match goal with A : spells _ d _ ?u |- _ < List.length (_ ++ ?u) =>
      rewrite (proj1 (spells_det h) _ _ _ A _ Ht) end.
    rewrite app_length. lia.
  - destruct (inner_len _ _ _ _ Hs V) as (t & A & B). specialize (IH _ A). lia.
  - destruct (item_len _ _ _ _ Hs V) as (t & A & B). specialize (IH _ A). lia.
Qed.

Theorem typeSpelling_short : forall i s, spells h 10 i s -> List.length s <= 255 ->
  exists N, forall fuel, N <= fuel -> typeSpelling junk h fuel i = Ok s.
Proof.
  intros i s H L. destruct (typeSpelling_exact i s H) as (N & [[O _]|[_ E]]).
  - apply overflow_long with (s := s) in O; auto. lia.
  - exists N. intros fuel K. rewrite E by auto. f_equal. now apply firstn_all2.
Qed.
End More.

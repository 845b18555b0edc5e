(** Consequences for programs of a particular form. *)
From Coq Require Import ZArith Lia Bool List.
From Verif Require Import Base CloModel CloSpec CloMem CloRep CloVars CloProofs.
Import ListNotations.
Local Open Scope Z_scope.

Lemma update_keep f x v L L' : update x v L = Some L' -> x <> f -> length L' = length L /\ find f L' = find f L.
Proof.
  revert L'. induction L as [|[y w] L IH]; cbn; intros L' H N; [discriminate|]. destruct (Nat.eqb_spec x y) as [<-|].
  - injection H as <-. cbn. destruct (Nat.eqb_spec f x); [congruence|auto].
  - destruct (update x v L) as [m|]; [|discriminate]. injection H as <-. destruct (IH _ eq_refl N) as [E1 E2]. cbn. rewrite E2. split; [congruence|reflexivity].
Qed.
Section Keep.
Variable callS : sval -> list sval -> vars -> outcome (sval * vars).
Variable lim : nat.
(** A variable that is not assigned to keeps its value, below the variables declared. *)
Lemma ex_keep f v : forall s L G L' G', ex callS lim s L G = Ok (L', G', None) -> assigns f s = false ->
  forall A B, L = A ++ B -> find f B = Some v -> exists A' B', L' = A' ++ B' /\ (length A <= length A')%nat /\ length B' = length B /\ find f B' = Some v.
Proof.
  induction s as [|a IHa b IHb|x t|x e|x e|e|s IHs|c a IHa b IHb|c b IHb|e]; intros L G L' G' H N A B E F; cbn [ex assigns] in *.
  - injection H as <- _. eauto 10.
  - apply orb_false_elim in N as [N1 N2]. destruct (ex callS lim a L G) as [[[L1 G1] [w|]]| |] eqn:Ea; try discriminate; cbn [bind fst snd] in H.
    destruct (IHa _ _ _ _ Ea N1 A B E F) as (A1 & B1 & E1 & Le & Lb & F1). destruct (IHb _ _ _ _ H N2 A1 B1 E1 F1) as (A2 & B2 & E2 & Le2 & Lb2 & F2). exists A2, B2. repeat split; auto; lia.
  - injection H as <- _. exists ((x, zero t) :: A), B. subst. cbn. repeat split; auto; lia.
  - destruct (ev callS L e G) as [[w G1]| |]; try discriminate. cbn [bind] in H. injection H as <- _. exists ((x, w) :: A), B. subst. cbn. repeat split; auto; lia.
  - destruct (ev callS L e G) as [[w G1]| |]; try discriminate. cbn [bind] in H. apply Nat.eqb_neq in N. destruct (update x w L) as [L1|] eqn:U.
    + injection H as <- _. subst L. clear - U N F. revert L1 U. induction A as [|[y u] A IH]; cbn; intros L1 U.
      * destruct (update_keep f x w B L1 U N) as [E1 E2]. exists [], L1. cbn. rewrite E2. auto.
      * destruct (Nat.eqb x y); [injection U as <-; exists ((y, w) :: A), B; cbn; auto|]. destruct (update x w (A ++ B)) as [m|]; [|discriminate]. injection U as <-.
        destruct (IH _ eq_refl) as (A' & B' & -> & Le & Lb & Fb). exists ((y, u) :: A'), B'. cbn. repeat split; auto; lia.
    + destruct (update x w G1); [|discriminate]. injection H as <- _. exists A, B. auto.
  - destruct (ev callS L e G) as [[w G1]| |]; try discriminate. cbn [bind] in H. injection H as <- _. exists A, B. auto.
  - destruct (ex callS lim s L G) as [[[L1 G1] [w|]]| |] eqn:Es; try discriminate; cbn [bind fst snd] in H. injection H as <- _.
    destruct (IHs _ _ _ _ Es N A B E F) as (A1 & B1 & -> & Le & Lb & F1). exists (skipn (length (A1 ++ B1) - length L) A1), B1. subst L. rewrite !app_length in *. rewrite Lb. replace (length A1 + length B - (length A + length B))%nat with (length A1 - length A)%nat by lia.
    rewrite skipn_app. replace (length A1 - length A - length A1)%nat with 0%nat by lia. cbn [skipn]. rewrite skipn_length. repeat split; auto; lia.
  - apply orb_false_elim in N as [N1 N2]. destruct (ev callS L c G) as [[w G1]| |]; try discriminate. cbn [bind] in H. destruct w as [z| |]; try discriminate.
    destruct (if z =? 0 then ex callS lim b L G1 else ex callS lim a L G1) as [[[L1 G2] [w|]]| |] eqn:Es; try discriminate; cbn [bind fst snd] in H. injection H as <- _.
    assert (Q : exists A' B', L1 = A' ++ B' /\ (length A <= length A')%nat /\ length B' = length B /\ find f B' = Some v) by (destruct (z =? 0); eauto).
    destruct Q as (A1 & B1 & -> & Le & Lb & F1). exists (skipn (length (A1 ++ B1) - length L) A1), B1. subst L. rewrite !app_length in *. rewrite Lb. replace (length A1 + length B - (length A + length B))%nat with (length A1 - length A)%nat by lia.
    rewrite skipn_app. replace (length A1 - length A - length A1)%nat with 0%nat by lia. cbn [skipn]. rewrite skipn_length. repeat split; auto; lia.
  - revert H E F. generalize lim at 2. intros m. revert L G A B. induction m as [|m IHm]; intros L G A B H E F; cbn in H; [discriminate|].
    destruct (ev callS L c G) as [[w G1]| |]; try discriminate. cbn [bind] in H. destruct w as [z| |]; try discriminate. destruct (z =? 0); [injection H as <- _; exists A, B; auto|].
    destruct (ex callS lim b L G1) as [[[L1 G2] [w|]]| |] eqn:Es; try discriminate; cbn [bind fst snd] in H.
    destruct (IHb _ _ _ _ Es N A B E F) as (A1 & B1 & -> & Le & Lb & F1). subst L. rewrite !app_length in H. rewrite Lb in H. replace (length A1 + length B - (length A + length B))%nat with (length A1 - length A)%nat in H by lia.
    rewrite skipn_app in H. replace (length A1 - length A - length A1)%nat with 0%nat in H by lia. cbn [skipn] in H.
    destruct (IHm _ _ _ _ H eq_refl F1) as (A2 & B2 & -> & Le2 & Lb2 & F2). exists A2, B2. rewrite skipn_length in Le2. repeat split; auto; lia.
  - destruct (ev callS L e G) as [[w G1]| |]; discriminate.
Qed.
(** The same for a block. *)
Lemma block_keep f v s L G L' G' : ex callS lim (SBlock s) L G = Ok (L', G', None) -> assigns f s = false -> find f L = Some v -> length L' = length L /\ find f L' = Some v.
Proof.
  intros H N F. cbn [ex] in H. destruct (ex callS lim s L G) as [[[L1 G1] [w|]]| |] eqn:Es; try discriminate; cbn [bind fst snd] in H. injection H as <- _.
  destruct (ex_keep f v s _ _ _ _ Es N [] L eq_refl F) as (A1 & B1 & -> & _ & Lb & F1). rewrite app_length, Lb. replace (length A1 + length L - length L)%nat with (length A1) by lia. rewrite skipn_app, skipn_all, Nat.sub_diag. cbn. auto.
Qed.
End Keep.


Lemma no_return callS lim s : forall L G L' G' o, returns s = false -> ex callS lim s L G = Ok (L', G', o) -> o = None.
Proof.
  induction s as [|a IHa b IHb|x t|x e|x e|e|s IHs|c a IHa b IHb|c b IHb|e]; intros L G L' G' o N H; cbn [ex returns] in *; try discriminate.
  - congruence.
  - apply orb_false_elim in N as [N1 N2]. destruct (ex callS lim a L G) as [[[L1 G1] o1]| |] eqn:Ea; try discriminate; cbn [bind fst snd] in H. rewrite (IHa _ _ _ _ _ N1 Ea) in H. eauto.
  - congruence.
  - destruct (ev callS L e G) as [[w G1]| |]; try discriminate. cbn [bind] in H. congruence.
  - destruct (ev callS L e G) as [[w G1]| |]; try discriminate. cbn [bind] in H. destruct (update x w L); [congruence|]. destruct (update x w G1); congruence.
  - destruct (ev callS L e G) as [[w G1]| |]; try discriminate. cbn [bind] in H. congruence.
  - destruct (ex callS lim s L G) as [[[L1 G1] o1]| |] eqn:Ea; try discriminate; cbn [bind fst snd] in H. injection H as _ _ <-. eauto.
  - apply orb_false_elim in N as [N1 N2]. destruct (ev callS L c G) as [[w G1]| |]; try discriminate. cbn [bind] in H. destruct w as [z| |]; try discriminate.
    destruct (z =? 0).
    + destruct (ex callS lim b L G1) as [[[L1 G2] o1]| |] eqn:Ea; try discriminate; cbn [bind fst snd] in H. injection H as _ _ <-. eauto.
    + destruct (ex callS lim a L G1) as [[[L1 G2] o1]| |] eqn:Ea; try discriminate; cbn [bind fst snd] in H. injection H as _ _ <-. eauto.
  - revert H. generalize lim at 2. intros m. revert L G. induction m as [|m IHm]; intros L G H; cbn in H; [discriminate|].
    destruct (ev callS L c G) as [[w G1]| |]; try discriminate. cbn [bind] in H. destruct w as [z| |]; try discriminate. destruct (z =? 0); [congruence|].
    destruct (ex callS lim b L G1) as [[[L1 G2] o1]| |] eqn:Es; try discriminate; cbn [bind fst snd] in H. rewrite (IHb _ _ _ _ _ N Es) in H. eauto.
Qed.
Lemma ex_seq callS lim a b L G : ex callS lim (SSeq a b) L G = let* (r, o) := ex callS lim a L G in match o with Some _ => Ok (r, o) | None => ex callS lim b (fst r) (snd r) end.
Proof. reflexivity. Qed.

Lemma ex_decl callS lim x e L G : ex callS lim (SDecl x e) L G = let* (v, G) := ev callS L e G in Ok ((x, v) :: L, G, None).
Proof. reflexivity. Qed.
Lemma ex_var callS lim x t L G : ex callS lim (SVar x t) L G = Ok ((x, zero t) :: L, G, None).
Proof. reflexivity. Qed.
Lemma ex_ret callS lim e L G : ex callS lim (SReturn e) L G = let* (v, G) := ev callS L e G in Ok (L, G, Some v).
Proof. reflexivity. Qed.
Lemma call_unit m f L G : ev (callV m) L (ECall (EVar f) ANil) G = match find f (L ++ G) with Some v => callV m v [] G | None => Err EOther end.
Proof. cbn. destruct (find f (L ++ G)); reflexivity. Qed.

Lemma capture_src gs x f z s n v G : assigns f s = false -> returns s = false -> meaning gs (capture x f z s) n = Ok (v, G) -> v = SInt z.
Proof.
  intros A R H. unfold meaning in H. destruct n as [|n]; [discriminate|]. cbn [callV length Nat.eqb map combine rev app] in H. unfold capture in H.
  set (G0 := map (fun g => (fst g, zero (snd g))) gs) in *. rewrite ex_seq, ex_decl in H. cbn [ev bind fst snd] in H. rewrite ex_seq, ex_decl in H. cbn [ev mapM app find] in H. rewrite Nat.eqb_refl in H. cbn [bind combine fst snd] in H.
  set (L := [(f, SClo [(x, SInt z)] [] (SReturn (EVar x))); (x, SInt z)]) in *. rewrite ex_seq in H.
  destruct (ex (callV n) n (SBlock s) L G0) as [[[L1 G1] o]| |] eqn:E; try discriminate. cbn [bind] in H.
  pose proof (no_return _ _ (SBlock s) _ _ _ _ _ R E) as ->.
  destruct (block_keep _ _ f (SClo [(x, SInt z)] [] (SReturn (EVar x))) s _ _ _ _ E A) as [_ F]; [cbn; rewrite Nat.eqb_refl; reflexivity|].
  cbn [fst snd] in H. rewrite ex_ret, call_unit, find_app, F in H. destruct n as [|n]; [discriminate|]. cbn [callV length Nat.eqb rev app combine map] in H. rewrite ex_ret in H. cbn [ev find app] in H. rewrite Nat.eqb_refl in H. cbn in H. congruence.
Qed.
Lemma null_src gs f s n : assigns f s = false -> returns s = false ->
  match meaning gs (nullCall f s) n with Ok _ => False | _ => True end.
Proof.
  intros A R. unfold meaning. destruct n as [|n]; [exact I|]. cbn [callV length Nat.eqb map combine rev app]. unfold nullCall.
  set (G0 := map (fun g => (fst g, zero (snd g))) gs) in *. rewrite ex_seq, ex_var. cbn [bind fst snd zero]. rewrite ex_seq.
  destruct (ex (callV n) n (SBlock s) [(f, SNull)] G0) as [[[L1 G1] o]| |] eqn:E; try exact I. cbn [bind].
  pose proof (no_return _ _ (SBlock s) _ _ _ _ _ R E) as ->.
  destruct (block_keep _ _ f SNull s _ _ _ _ E A) as [_ F]; [cbn; rewrite Nat.eqb_refl; reflexivity|].
  cbn [fst snd]. rewrite ex_ret, call_unit, find_app, F. destruct n; exact I.
Qed.
Lemma own_src gs x f y z s n v G : x <> f -> x <> y -> meaning gs (ownCopy x f y z s) n = Ok (v, G) -> v = SInt z.
Proof.
  intros N1 N2 H. unfold meaning in H. destruct n as [|n]; [discriminate|]. cbn [callV length Nat.eqb map combine rev app] in H. unfold ownCopy in H.
  set (G0 := map (fun g => (fst g, zero (snd g))) gs) in *. rewrite ex_seq, ex_decl in H. cbn [ev bind fst snd] in H. rewrite ex_seq, ex_decl in H. cbn [ev mapM app find] in H. rewrite Nat.eqb_refl in H. cbn [bind combine fst snd] in H.
  rewrite ex_seq, ex_decl, call_unit in H. cbn [find app] in H. rewrite Nat.eqb_refl in H.
  destruct (callV n (SClo [(x, SInt z)] [] s) [] G0) as [[w G1]| |]; try discriminate. cbn [bind fst snd] in H. rewrite ex_ret in H. cbn [ev app find] in H. rewrite (proj2 (Nat.eqb_neq _ _) N2), (proj2 (Nat.eqb_neq _ _) N1), Nat.eqb_refl in H. cbn in H. congruence.
Qed.

Lemma transfer gs b c n : compile gs b = Ok c -> meaning gs b n <> UB ->
  (exists z d G, runMain gs b n = Ok (VZ z, d) /\ meaning gs b n = Ok (SInt z, G)) \/ exists e, failure e /\ runMain gs b n = Err e /\ meaning gs b n = Err e.
Proof.
  destruct c as [fc tab]. intros H N. pose proof (program_ok gs b fc tab n H) as Q. destruct (meaning gs b n) as [[v G]|e|]; [| |contradiction].
  - destruct Q as (z & d & -> & Q & _). left. eauto 10.
  - destruct Q. right. eauto 10.
Qed.
Lemma captured gs x f z s c n : compile gs (capture x f z s) = Ok c -> assigns f s = false -> returns s = false -> meaning gs (capture x f z s) n <> UB ->
  (exists d, runMain gs (capture x f z s) n = Ok (VZ z, d)) \/ exists e, (e = EFuel \/ e = EIllegalFn) /\ runMain gs (capture x f z s) n = Err e.
Proof.
  intros H A R U. destruct (transfer _ _ _ n H U) as [(y & d & G & E1 & E2)|(e & F & E1 & _)]; [|eauto].
  apply capture_src in E2; auto. injection E2 as ->. eauto.
Qed.
Lemma null_called gs f s c n : compile gs (nullCall f s) = Ok c -> assigns f s = false -> returns s = false -> meaning gs (nullCall f s) n <> UB ->
  exists e, (e = EFuel \/ e = EIllegalFn) /\ runMain gs (nullCall f s) n = Err e.
Proof.
  intros H A R U. destruct (transfer _ _ _ n H U) as [(y & d & G & E1 & E2)|(e & F & E1 & _)]; [|eauto]. pose proof (null_src gs f s n A R) as Q. rewrite E2 in Q. contradiction.
Qed.
Lemma own_copy gs x f y z s c n : x <> f -> x <> y -> compile gs (ownCopy x f y z s) = Ok c -> meaning gs (ownCopy x f y z s) n <> UB ->
  (exists d, runMain gs (ownCopy x f y z s) n = Ok (VZ z, d)) \/ exists e, (e = EFuel \/ e = EIllegalFn) /\ runMain gs (ownCopy x f y z s) n = Err e.
Proof.
  intros N1 N2 H U. destruct (transfer _ _ _ n H U) as [(w & d & G & E1 & E2)|(e & F & E1 & _)]; [|eauto].
  apply own_src in E2; auto. injection E2 as ->. eauto.
Qed.

(** Proofs for NamesModel. *)
From Coq Require Import Arith List Lia.
From Verif Require Import Base NamesModel NamesSpec.
Import ListNotations.

(** The reader without arrays, with room for [k] names. *)
Fixpoint pnames (l : list tok) (k : nat) : outcome (list (name * bool) * list tok) :=
  match l with
  | KId n :: r0 =>
      match k with
      | O => Err ETooMany
      | S k =>
          match r0 with
          | KStar :: KComma :: r => let* (x, q) := pnames r k in Ok ((n, true) :: x, q)
          | KStar :: r => Ok ([(n, true)], r)
          | KComma :: r => let* (x, q) := pnames r k in Ok ((n, false) :: x, q)
          | r => Ok ([(n, false)], r)
          end
      end
  | _ => Err ESyntax
  end.

Lemma setAt_firstn : forall A (b : list A) i v, i < length b ->
  exists b', setAt b i v = Ok b' /\ length b' = length b /\ firstn (S i) b' = firstn i b ++ [v].
Proof.
  intros A b i v H. exists (firstn i b ++ v :: skipn (S i) b). unfold setAt. rewrite (proj2 (Nat.ltb_lt _ _) H).
  split; [reflexivity|]. split.
  - rewrite app_length. cbn [length]. rewrite firstn_length, skipn_length. lia.
  - rewrite firstn_app, firstn_length, Nat.min_l by lia. replace (S i - i) with 1 by lia.
    rewrite firstn_firstn, Nat.min_r by lia. reflexivity.
Qed.

Definition inv (cap : nat) (names : list name) (ex : list bool) (done : list (name * bool)) : Prop :=
  length names = cap /\ length ex = cap /\ length done <= cap /\ firstn (length done) names = map fst done /\ firstn (length done) ex = map snd done.

Lemma store_spec : forall cap names ex done n e, inv cap names ex done -> length n <= 255 ->
  (cap <= length done /\ store cap names ex (length done) n e = Err ETooMany) \/
  (length done < cap /\ exists names' ex', store cap names ex (length done) n e = Ok (names', ex', length (done ++ [(n, e)])) /\ inv cap names' ex' (done ++ [(n, e)])).
Proof.
  intros cap names ex done n e (L1 & L2 & L3 & F1 & F2) N. unfold store. destruct (Nat.leb_spec cap (length done)) as [G|G].
  - left. split; [exact G | reflexivity].
  - right. split; [exact G|]. unfold setName, maxLen. rewrite (proj2 (Nat.leb_le _ _) N).
    destruct (setAt_firstn _ names (length done) n) as (a & A1 & A2 & A3); [lia|].
    destruct (setAt_firstn _ ex (length done) e) as (b & B1 & B2 & B3); [lia|].
    rewrite A1. cbn [bind]. rewrite B1. cbn [bind]. exists a, b.
    assert (E : length (done ++ [(n, e)]) = S (length done)) by (rewrite app_length; cbn [length]; lia).
    rewrite E. split; [reflexivity|]. unfold inv. rewrite E, A3, B3, F1, F2, !map_app. repeat split; try lia; reflexivity.
Qed.

Definition view (x : outcome (list name * list bool * nat * list tok)) : outcome (list (name * bool) * list tok) :=
  let* (names, ex, num, r) := x in Ok (combine (firstn num names) (firstn num ex), r).

Lemma combine_maps : forall A B (l : list (A * B)), combine (map fst l) (map snd l) = l.
Proof. induction l as [|[a b] l IH]; cbn; [reflexivity | rewrite IH; reflexivity]. Qed.
Lemma view_ok : forall cap names ex done r, inv cap names ex done -> view (Ok (names, ex, length done, r)) = Ok (done, r).
Proof. intros cap names ex done r (_ & _ & _ & F1 & F2). unfold view. cbn [bind]. rewrite F1, F2, combine_maps. reflexivity. Qed.

Lemma fine_tl : forall a l, fine (a :: l) -> fine l.
Proof. intros a l H n I. apply H. right. exact I. Qed.

Lemma identList_pure : forall k l cap names ex done, length l <= k -> inv cap names ex done -> fine l ->
  view (identList l cap names ex (length done)) = let* (x, q) := pnames l (cap - length done) in Ok (done ++ x, q).
Proof.
  induction k as [|k IH]; intros l cap names ex done K I F.
  - destruct l; [reflexivity | cbn in K; lia].
  - destruct l as [|a r0]; [reflexivity|]. destruct a as [n| | | | | | | | |]; try reflexivity.
    assert (N : length n <= 255) by (apply F; left; reflexivity).
    assert (STEP : forall e r , fine r -> length r <= k ->
      view (let* (names, ex, num) := store cap names ex (length done) n e in identList r cap names ex num)
      = match cap - length done with O => Err ETooMany | S c => let* (x, q) := (let* (x, q) := pnames r c in Ok ((n, e) :: x, q)) in Ok (done ++ x, q) end).
    { intros e r Fr Kr. destruct (store_spec cap names ex done n e I N) as [[G E]|(G & a & b & E & J)]; rewrite E; cbn [bind].
      - replace (cap - length done) with 0 by lia. reflexivity.
      - rewrite (IH r cap a b _ Kr J Fr). destruct (cap - length done) as [|c] eqn:C; [lia|].
        match goal with |- context [pnames r (cap - ?z)] => replace (cap - z) with c by (rewrite app_length; cbn [length]; lia) end.
        destruct (pnames r c) as [[x q]| |]; cbn [bind]; try reflexivity. rewrite <- app_assoc. reflexivity. }
    assert (LAST : forall e r,
      view (let* s := store cap names ex (length done) n e in Ok (s, r))
      = match cap - length done with O => Err ETooMany | S c => Ok (done ++ [(n, e)], r) end).
    { intros e r. destruct (store_spec cap names ex done n e I N) as [[G E]|(G & a & b & E & J)]; rewrite E; cbn [bind].
      - replace (cap - length done) with 0 by lia. reflexivity.
      - rewrite (view_ok cap a b _ r J). destruct (cap - length done) eqn:C; [lia | reflexivity]. }
    cbn [length] in K. apply fine_tl in F.
    destruct r0 as [|b r1].
    + cbn [identList pnames]. rewrite LAST. destruct (cap - length done); reflexivity.
    + destruct b; try (cbn [identList pnames]; rewrite LAST; destruct (cap - length done); reflexivity).
      * destruct r1 as [|c r2]; [cbn [identList pnames]; rewrite LAST; destruct (cap - length done); reflexivity|].
        destruct c; try (cbn [identList pnames]; rewrite LAST; destruct (cap - length done); reflexivity).
        cbn [identList pnames]. rewrite STEP; [destruct (cap - length done); reflexivity | apply fine_tl in F; apply fine_tl in F; exact F | cbn [length] in K; lia].
      * cbn [identList pnames]. rewrite STEP; [destruct (cap - length done); reflexivity | apply fine_tl in F; exact F | cbn [length] in K; lia].
Qed.

Lemma read_pure : forall names ex l, length names = 16 -> length ex = 16 -> fine l -> readNames names ex l = pnames l 16.
Proof.
  intros names ex l L1 L2 F.
  assert (I : inv 16 names ex []) by (repeat split; cbn; lia || assumption || reflexivity).
  pose proof (identList_pure (length l) l 16 names ex [] (le_n _) I F) as H. cbn [length] in H. unfold readNames, maxList. unfold view in H. rewrite H.
  replace (16 - 0) with 16 by lia. destruct (pnames l 16) as [[x q]| |]; reflexivity.
Qed.

(** ** The grammar *)
Lemma listing_cons : forall x y r, listing (x :: y :: r) = written x ++ KComma :: listing (y :: r).
Proof. reflexivity. Qed.
Lemma pnames_many : forall l k rest, k < length l -> pnames (listing l ++ rest) k = Err ETooMany.
Proof.
  induction l as [|[n e] l IH]; intros k rest H; [cbn in H; lia|].
  destruct l as [|y l].
  - destruct k; [|cbn in H; lia]. destruct e; reflexivity.
  - rewrite listing_cons. destruct k as [|k]; [destruct e; reflexivity|].
    cbn [length] in H. assert (G : k < length (y :: l)) by (cbn [length]; lia). specialize (IH k rest G).
    destruct e; cbn [written fst snd app pnames]; rewrite IH; reflexivity.
Qed.
Lemma pnames_ok : forall l k rest, l <> [] -> length l <= k -> endsAfter l rest -> pnames (listing l ++ rest) k = Ok (l, rest).
Proof.
  induction l as [|[n e] l IH]; intros k rest N H E; [congruence|].
  destruct k as [|k]; [cbn in H; lia|]. destruct l as [|y l].
  - cbn in E. destruct e; cbn [listing written fst snd app pnames]; (destruct rest as [|b rest]; [reflexivity|]); destruct b; try reflexivity; try contradiction; discriminate.
  - rewrite listing_cons. cbn [length] in H.
    assert (G : pnames (listing (y :: l) ++ rest) k = Ok (y :: l, rest)) by (apply IH; [discriminate | cbn [length]; lia | exact E]).
    destruct e; cbn [written fst snd app pnames]; rewrite G; reflexivity.
Qed.
Lemma pnames_sound : forall m l k ns rest, length l <= m -> pnames l k = Ok (ns, rest) -> l = listing ns ++ rest /\ ns <> [] /\ length ns <= k /\ endsAfter ns rest.
Proof.
  induction m as [|m IH]; intros l k ns rest M H; [destruct l; [discriminate | cbn in M; lia]|].
  destruct l as [|a r0]; [discriminate|]. destruct a as [n| | | | | | | | |]; try discriminate.
  destruct k as [|k]; [discriminate|]. cbn [length] in M.
  assert (STEP : forall e r, length r <= m -> (let* (x, q) := pnames r k in Ok ((n, e) :: x, q)) = Ok (ns, rest) ->
    KId n :: (if e then [KStar] else []) ++ KComma :: r = listing ns ++ rest /\ ns <> [] /\ length ns <= S k /\ endsAfter ns rest).
  { intros e r R X. destruct (pnames r k) as [[x q]| |] eqn:P; try discriminate. cbn [bind] in X. injection X as <- <-.
    destruct (IH r k x q R P) as (E & N & L & Z). destruct x as [|y x]; [congruence|].
    split; [|split; [discriminate|split; [cbn [length] in *; lia | exact Z]]].
    rewrite listing_cons, E. unfold written. cbn [fst snd]. destruct e; reflexivity. }
  assert (LAST : forall e r, endsAfter [(n, e)] r -> Ok ([(n, e)], r) = Ok (ns, rest) ->
    KId n :: (if e then [KStar] else []) ++ r = listing ns ++ rest /\ ns <> [] /\ length ns <= S k /\ endsAfter ns rest).
  { intros e r Z X. injection X as <- <-. split; [reflexivity|]. split; [discriminate|]. split; [cbn [length]; lia | exact Z]. }
  destruct r0 as [|b r1]; [exact (LAST false [] Logic.I H)|].
  destruct b; try (match type of H with pnames (_ :: ?q) _ = _ => exact (LAST false q Logic.I H) end).
  - destruct r1 as [|c r2]; [exact (LAST true [] Logic.I H)|].
    destruct c; try (match type of H with pnames (_ :: _ :: ?q) _ = _ => exact (LAST true q Logic.I H) end); [exact (LAST true (KStar :: r2) eq_refl H)|].
    apply (STEP true r2); [cbn [length] in M; lia | exact H].
  - apply (STEP false r1); [cbn [length] in M; lia | exact H].
Qed.
Lemma pnames_ub : forall m l k, length l <= m -> pnames l k <> UB.
Proof.
  induction m as [|m IH]; intros l k M; [destruct l; [discriminate | cbn in M; lia]|].
  destruct l as [|a r0]; [discriminate|]. destruct a as [n| | | | | | | | |]; try discriminate.
  destruct k as [|k]; [discriminate|]. cbn [length] in M. destruct r0 as [|b r1]; [discriminate|]. cbn [length] in M.
  destruct b; try discriminate.
  - destruct r1 as [|c r2]; [discriminate|]. cbn [length] in M. destruct c; try discriminate. cbn [pnames].
    assert (X : pnames r2 k <> UB) by (apply IH; lia). destruct (pnames r2 k) as [[x q]| |]; [discriminate | discriminate | congruence].
  - cbn [pnames]. assert (X : pnames r1 k <> UB) by (apply IH; lia). destruct (pnames r1 k) as [[x q]| |]; [discriminate | discriminate | congruence].
Qed.

Lemma names_iff : forall names ex l ns rest, length names = 16 -> length ex = 16 -> fine l ->
  (readNames names ex l = Ok (ns, rest) <-> l = listing ns ++ rest /\ ns <> [] /\ length ns <= 16 /\ endsAfter ns rest).
Proof.
  intros names ex l ns rest L1 L2 F. rewrite (read_pure names ex l L1 L2 F). split.
  - apply (pnames_sound (length l)). constructor.
  - intros (-> & N & L & E). exact (pnames_ok ns 16 rest N L E).
Qed.
Lemma names_safe : forall names ex l, length names = 16 -> length ex = 16 -> fine l -> readNames names ex l <> UB.
Proof. intros names ex l L1 L2 F. rewrite (read_pure names ex l L1 L2 F). apply (pnames_ub (length l)). constructor. Qed.
Lemma names_many : forall names ex ns rest, length names = 16 -> length ex = 16 -> fine (listing ns ++ rest) -> 16 < length ns ->
  readNames names ex (listing ns ++ rest) = Err ETooMany.
Proof. intros names ex ns rest L1 L2 F L. rewrite (read_pure names ex _ L1 L2 F). exact (pnames_many ns 16 rest L). Qed.

(** ** Declarations *)
Lemma fine_app : forall a b, fine (a ++ b) -> fine b.
Proof. intros a b H n I. apply H. apply in_or_app. right. exact I. Qed.
Lemma item_ok : forall names ex x rest, length names = 16 -> length ex = 16 -> fine (itemText x ++ rest) -> goodItem x ->
  varItem names ex (itemText x ++ rest) = Ok (fst x, snd x, rest).
Proof.
  intros names ex [ns t] rest L1 L2 F [N L]. unfold varItem, itemText in *. cbn [fst snd] in *. rewrite <- app_assoc in *.
  rewrite (proj2 (names_iff names ex _ ns ([KColon; KTy t] ++ rest) L1 L2 F)); [reflexivity|]. repeat split; assumption.
Qed.
Lemma listing_id : forall ns, ns <> [] -> exists n r, listing ns = KId n :: r.
Proof. intros [|[n e] [|y r]] N; [congruence | exists n; eexists; reflexivity | exists n; eexists; reflexivity]. Qed.
Lemma items_ok : forall names ex, length names = 16 -> length ex = 16 -> forall g fuel rest, length g < fuel ->
  fine (groupText g ++ KRpar :: rest) -> Forall goodItem g -> varItems fuel names ex (groupText g ++ KRpar :: rest) = Ok (g, rest).
Proof.
  intros names ex L1 L2. induction g as [|x g IH]; intros fuel rest K F G; (destruct fuel as [|fuel]; [cbn in K; lia|]).
  - reflexivity.
  - inversion G as [|? ? G1 G2]; subst. unfold groupText in *. cbn [map concat] in *. rewrite <- !app_assoc in *. cbn [app] in *.
    pose proof (item_ok names ex x _ L1 L2 F G1) as X.
    assert (Y : exists n r, itemText x ++ KSemi :: concat (map (fun x => itemText x ++ [KSemi]) g) ++ KRpar :: rest = KId n :: r).
    { destruct (listing_id (fst x) (proj1 G1)) as (n & r & E). unfold itemText. rewrite E. exists n. eexists. reflexivity. }
    destruct Y as (n & r & Y). cbn [varItems]. rewrite Y in *. rewrite X. cbn [bind].
    rewrite IH; [cbn [bind]; destruct x; reflexivity | cbn [length] in K; lia | | exact G2].
    rewrite <- Y in F. apply fine_app in F. apply fine_tl in F. exact F.
Qed.
Lemma group_length : forall g, length g <= length (groupText g).
Proof.
  induction g as [|x g IH]; [constructor|]. unfold groupText in *. cbn [map concat length]. rewrite !app_length. cbn [length]. lia.
Qed.
Lemma decl_group : forall names ex g rest, length names = 16 -> length ex = 16 -> fine (groupText g ++ KRpar :: rest) -> Forall goodItem g ->
  varDecl names ex (KVar :: KLpar :: groupText g ++ KRpar :: rest) = Ok (g, rest).
Proof.
  intros names ex g rest L1 L2 F G. unfold varDecl. apply items_ok; try assumption.
  cbn [length]. rewrite app_length. pose proof (group_length g). cbn [length]. lia.
Qed.
Lemma decl_one : forall names ex x rest, length names = 16 -> length ex = 16 -> fine (itemText x ++ rest) -> goodItem x ->
  varDecl names ex (KVar :: itemText x ++ rest) = Ok ([x], rest).
Proof.
  intros names ex x rest L1 L2 F G. pose proof (item_ok names ex x rest L1 L2 F G) as X.
  assert (Y : exists n r, itemText x ++ rest = KId n :: r).
  { destruct (listing_id (fst x) (proj1 G)) as (n & r & E). unfold itemText. rewrite E. exists n. eexists. reflexivity. }
  destruct Y as (n & r & Y). unfold varDecl. rewrite Y in *. rewrite X. cbn [bind]. destruct x. reflexivity.
Qed.

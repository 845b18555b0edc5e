From Coq Require Import ZArith List Bool Arith Lia.
From Verif Require Import Base PrecModel PrecSpec PrecProofs.
Import ListNotations.

(** ** [parse] never runs out of calls *)

Definition fine {A} (k : nat) (ts : list tok) (x : outcome (A * list tok)) : Prop :=
  match x with
  | Ok (_, r) => k + length r <= length ts
  | Err EFuel => False
  | _ => True
  end.

Definition off (l : lvl) : nat :=
  match l with LTerm => 2 | LRelTerm => 3 | LRel => 4 | LLogTerm => 5 | LLogExpr => 6 end.

Lemma fine_bind A B k k' ts ts' (x : outcome (A * list tok)) (f : A * list tok -> outcome (B * list tok)) :
  fine k ts' x ->
  (forall a r, k + length r <= length ts' -> fine k' ts (f (a, r))) ->
  fine k' ts (bind x f).
Proof.
  intros H K. destruct x as [[a r]|e|]; cbn in *; [apply K; exact H| |exact I].
  destruct e; auto.
Qed.

Lemma fine_eat B t r k ts (f : list tok -> outcome (B * list tok)) :
  (forall r', length r = S (length r') -> fine k ts (f r')) -> fine k ts (bind (eat t r) f).
Proof.
  intro K. destruct r as [|t' r]; cbn; [exact I|]. destruct (tokEq t t'); cbn; [|exact I].
  apply K. reflexivity.
Qed.

Lemma skipEol_le r : length (skipEol r) <= length r.
Proof. destruct r as [|[]]; cbn; lia. Qed.

Lemma enough : forall n,
  (forall ts, 8 * length ts + 7 <= n -> fine 1 ts (parseExpr n ts)) /\
  (forall l ts, 8 * length ts + off l <= n -> fine 1 ts (parseBin n l ts)) /\
  (forall l a ts, 8 * length ts + 1 <= n -> fine 0 ts (parseRest n l a ts)) /\
  (forall ts, 8 * length ts + 1 <= n -> fine 1 ts (parseFactor n ts)) /\
  (forall d ts, 8 * length ts + 1 <= n -> fine 0 ts (parseSelectors n d ts)) /\
  (forall ts, 8 * length ts + 8 <= n -> fine 1 ts (parseActualParams n ts)).
Proof.
  induction n as [|n (IE & IB & IR & IF & IS & IA)].
  { repeat split; intros; try (destruct l; cbn in *); lia. }
  assert (OPD : forall l ts, 8 * length ts + off l <= S n ->
      fine 1 ts (match operandOf l with Some l' => parseBin n l' ts | None => parseFactor n ts end)).
  { intros l ts H. destruct l; cbn [operandOf off] in *; [apply IF|apply IB|apply IB|apply IB|apply IB];
      cbn [off]; lia. }
  split; [|split; [|split; [|split; [|split]]]].
  - intros ts H. cbn [parseExpr]. eapply fine_bind; [apply IB; cbn [off]; lia|].
    intros a r L. destruct r as [|t r]; [exact L|].
    destruct t; try exact L. cbn [length] in L.
    eapply fine_bind; [apply IE; lia|]. intros a1 r1 L1. cbn beta iota.
    apply fine_eat. intros r2 L2.
    eapply fine_bind; [apply IE; lia|]. intros a3 r3 L3. cbn. lia.
  - intros l ts H. cbn [parseBin]. eapply fine_bind; [apply OPD; lia|].
    intros a r L. pose proof (IR l a r ltac:(destruct l; cbn [off] in H; lia)) as K.
    destruct (parseRest n l a r) as [[? ?]|[]|]; cbn in *; try exact I; try contradiction. lia.
  - intros l a ts H. cbn [parseRest].
    destruct ts as [|t ts]; [cbn; lia|].
    destruct t; try (cbn; lia).
    destruct (reads l o); [|cbn; lia]. cbn [length] in H.
    eapply fine_bind; [apply OPD; destruct l; cbn [off]; lia|].
    intros b r L. destruct (repeats l); [|cbn; lia].
    pose proof (IR l (EBin o a b) r ltac:(lia)) as K.
    destruct (parseRest n l (EBin o a b) r) as [[? ?]|[]|]; cbn in *; try exact I; try contradiction. lia.
  - intros ts H. cbn [parseFactor].
    assert (UN : forall t l, length ts = S (length l) -> fine 1 ts (match unaryOf t with
          | Some u => let* (e, r) := parseFactor n l in Ok (EUn u e, r)
          | None => Err EOther end)).
    { intros t l E. destruct (unaryOf t); [|exact I].
      eapply fine_bind; [apply IF; lia|]. intros e r L. cbn. lia. }
    destruct ts as [|t ts]; [exact I|].
    destruct t; try (apply UN; reflexivity).
    + eapply fine_bind; [apply IS; cbn [length] in H; lia|]. intros d r L. cbn in *. lia.
    + cbn. lia.
    + destruct o; try (apply UN; reflexivity).
      destruct ts as [|t ts]; [exact I|]. destruct t; try exact I.
      eapply fine_bind; [apply IS; cbn [length] in H; lia|]. intros d r L. cbn in *. lia.
    + eapply fine_bind; [apply IE; cbn [length] in H; lia|]. intros e r L. cbn beta iota.
      apply fine_eat. intros r1 L1. cbn in *. lia.
  - intros d ts H. cbn [parseSelectors].
    assert (ST : forall d' r, 1 + length r <= length ts -> fine 0 ts (parseSelectors n d' r)).
    { intros d' r L. pose proof (IS d' r ltac:(lia)) as K.
      destruct (parseSelectors n d' r) as [[? ?]|[]|]; cbn in *; try exact I; try contradiction. lia. }
    destruct ts as [|t ts]; [cbn; lia|].
    destruct t; try (cbn; lia).
    + assert (C : fine 0 (TLpar :: ts) (let* (es, r0) := parseActualParams n ts in
                     let* r1 := eat TRpar (skipEol r0) in parseSelectors n (DCall d es) r1)).
      { eapply fine_bind; [apply IA; cbn [length] in H; lia|]. intros es r L. cbn beta iota.
        apply fine_eat. intros r1 L1. apply ST. pose proof (skipEol_le r). cbn [length]. lia. }
      destruct ts as [|t ts]; [exact C|]. destruct t; try exact C.
      apply ST. cbn. lia.
    + eapply fine_bind; [apply IE; cbn [length] in H; lia|]. intros e r L. cbn beta iota.
      apply fine_eat. intros r1 L1. apply ST. cbn [length]. lia.
    + destruct ts as [|t ts]; [exact I|]. destruct t; try exact I. apply ST. cbn. lia.
    + apply ST. cbn. lia.
  - intros ts H. cbn [parseActualParams].
    eapply fine_bind; [apply IE; lia|]. intros e r L. cbn beta iota.
    destruct r as [|t r]; [cbn in *; lia|]. destruct t; try (cbn in *; lia).
    cbn [length] in L. eapply fine_bind; [apply IA; lia|]. intros es r1 L1. cbn in *. lia.
Qed.

(** More calls change nothing. *)

Definition le_out {A} (x y : outcome A) : Prop := x = Err EFuel \/ x = y.

Lemma le_bind A B (x y : outcome A) (f g : A -> outcome B) :
  le_out x y -> (forall a, le_out (f a) (g a)) -> le_out (bind x f) (bind y g).
Proof.
  intros [-> | ->] H; [left; reflexivity|]. destruct y; cbn; [apply H|right; reflexivity|right; reflexivity].
Qed.

Lemma le_refl A (x : outcome A) : le_out x x.
Proof. right; reflexivity. Qed.

Lemma more : forall n,
  (forall ts, le_out (parseExpr n ts) (parseExpr (S n) ts)) /\
  (forall l ts, le_out (parseBin n l ts) (parseBin (S n) l ts)) /\
  (forall l a ts, le_out (parseRest n l a ts) (parseRest (S n) l a ts)) /\
  (forall ts, le_out (parseFactor n ts) (parseFactor (S n) ts)) /\
  (forall d ts, le_out (parseSelectors n d ts) (parseSelectors (S n) d ts)) /\
  (forall ts, le_out (parseActualParams n ts) (parseActualParams (S n) ts)).
Proof.
  induction n as [|n (IE & IB & IR & IF & IS & IA)].
  { repeat split; intros; left; reflexivity. }
  assert (OPD : forall l ts,
      le_out (match operandOf l with Some l' => parseBin n l' ts | None => parseFactor n ts end)
             (match operandOf l with Some l' => parseBin (S n) l' ts | None => parseFactor (S n) ts end)).
  { intros l ts. destruct (operandOf l); auto. }
  split; [|split; [|split; [|split; [|split]]]].
  - intros ts. change (le_out
      (let* (c, r) := parseBin n LLogExpr ts in
      match r with
      | TQuestion :: r =>
          let* (a, r) := parseExpr n r in
          let* r := eat TColon r in
          let* (b, r) := parseExpr n r in
          Ok (ECond c a b, r)
      | _ => Ok (c, r)
      end) (let* (c, r) := parseBin (S n) LLogExpr ts in
      match r with
      | TQuestion :: r =>
          let* (a, r) := parseExpr (S n) r in
          let* r := eat TColon r in
          let* (b, r) := parseExpr (S n) r in
          Ok (ECond c a b, r)
      | _ => Ok (c, r)
      end)).
    apply le_bind; [apply IB|]. intros [c r]. destruct r as [|t r]; [apply le_refl|].
    destruct t; try apply le_refl. apply le_bind; [apply IE|]. intros [a r1].
    apply le_bind; [apply le_refl|]. intro r2. apply le_bind; [apply IE|]. intros [b r3]. apply le_refl.
  - intros l ts. change (le_out
      (let* (a, r) := (match operandOf l with Some l' => parseBin n l' ts | None => parseFactor n ts end) in
       parseRest n l a r)
      (let* (a, r) := (match operandOf l with Some l' => parseBin (S n) l' ts | None => parseFactor (S n) ts end) in
       parseRest (S n) l a r)).
    apply le_bind; [apply OPD|]. intros [a r]. apply IR.
  - intros l a ts. destruct ts as [|t ts]; [right; reflexivity|].
    destruct t; try (right; reflexivity).
    change (le_out
      (if reads l o then
         let* (b, r) := (match operandOf l with Some l' => parseBin n l' ts | None => parseFactor n ts end) in
         if repeats l then parseRest n l (EBin o a b) r else Ok (EBin o a b, r)
       else Ok (a, TOp o :: ts))
      (if reads l o then
         let* (b, r) := (match operandOf l with Some l' => parseBin (S n) l' ts | None => parseFactor (S n) ts end) in
         if repeats l then parseRest (S n) l (EBin o a b) r else Ok (EBin o a b, r)
       else Ok (a, TOp o :: ts))).
    destruct (reads l o); [|apply le_refl].
    apply le_bind; [apply OPD|]. intros [b r]. destruct (repeats l); [apply IR|apply le_refl].
  - intros ts. destruct ts as [|t ts]; [right; reflexivity|].
    assert (UN : forall t, le_out (match unaryOf t with
          | Some u => let* (e, r) := parseFactor n ts in Ok (EUn u e, r)
          | None => Err EOther end) (match unaryOf t with
          | Some u => let* (e, r) := parseFactor (S n) ts in Ok (EUn u e, r)
          | None => Err EOther end)).
    { intro t0. destruct (unaryOf t0); [|apply le_refl].
      apply le_bind; [apply IF|]. intros [e r]. apply le_refl. }
    assert (DS : forall x r (k : desig -> expr), le_out
       (let* (d, r) := parseSelectors n (DIdent x) r in Ok (k d, r))
       (let* (d, r) := parseSelectors (S n) (DIdent x) r in Ok (k d, r))).
    { intros x r k. apply le_bind; [apply IS|]. intros [d r0]. apply le_refl. }
    destruct t; try exact (UN TNot); try (right; reflexivity).
    + exact (DS x ts EDes).
    + destruct o; try (right; reflexivity); try exact (UN (TOp OPlus)); try exact (UN (TOp OMinus));
        try exact (UN (TOp OXor)).
      destruct ts as [|t ts]; [right; reflexivity|]. destruct t; try (right; reflexivity).
      exact (DS x ts EAddr).
    + change (le_out
       (let* (e, r) := parseExpr n ts in let* r := eat TRpar r in Ok (e, r))
       (let* (e, r) := parseExpr (S n) ts in let* r := eat TRpar r in Ok (e, r))).
      apply le_bind; [apply IE|]. intros [e r]. apply le_refl.
  - intros d ts. destruct ts as [|t ts]; [right; reflexivity|].
    destruct t; try (right; reflexivity).
    + assert (C : le_out (let* (es, r0) := parseActualParams n ts in
                     let* r1 := eat TRpar (skipEol r0) in parseSelectors n (DCall d es) r1)
                  (let* (es, r0) := parseActualParams (S n) ts in
                     let* r1 := eat TRpar (skipEol r0) in parseSelectors (S n) (DCall d es) r1)).
      { apply le_bind; [apply IA|]. intros [es r0]. apply le_bind; [apply le_refl|]. intro r1. apply IS. }
      destruct ts as [|t ts]; [exact C|]. destruct t; try exact C. exact (IS (DCall d ANil) ts).
    + change (le_out
       (let* (e, r) := parseExpr n ts in let* r := eat TRbracket r in parseSelectors n (DIndex d e) r)
       (let* (e, r) := parseExpr (S n) ts in let* r := eat TRbracket r in parseSelectors (S n) (DIndex d e) r)).
      apply le_bind; [apply IE|]. intros [e r]. apply le_bind; [apply le_refl|]. intro r1. apply IS.
    + destruct ts as [|t ts]; [right; reflexivity|]. destruct t; try (right; reflexivity).
      exact (IS (DField d x) ts).
    + exact (IS (DDeref d) ts).
  - intros ts. change (le_out
      (let* (e, r) := parseExpr n ts in
      match r with
      | TComma :: r => let* (es, r) := parseActualParams n r in Ok (ACons e es, r)
      | _ => Ok (ACons e ANil, r)
      end)
      (let* (e, r) := parseExpr (S n) ts in
      match r with
      | TComma :: r => let* (es, r) := parseActualParams (S n) r in Ok (ACons e es, r)
      | _ => Ok (ACons e ANil, r)
      end)).
    apply le_bind; [apply IE|]. intros [e r]. destruct r as [|t r]; [apply le_refl|].
    destruct t; try apply le_refl. apply le_bind; [apply IA|]. intros [es r1]. apply le_refl.
Qed.

Lemma parse_same ts n : 8 * length ts + 7 <= n -> parseExpr n ts = parse ts.
Proof.
  intro H. unfold parse.
  assert (G : forall k, parseExpr (8 * length ts + 7 + k) ts = parseExpr (8 * length ts + 7) ts).
  { induction k as [|k IH]; [now rewrite Nat.add_0_r|].
    rewrite <- IH. replace (8 * length ts + 7 + S k) with (S (8 * length ts + 7 + k)) by lia.
    destruct (proj1 (more (8 * length ts + 7 + k)) ts) as [F|E]; [|now rewrite E].
    pose proof (proj1 (enough (8 * length ts + 7 + k)) ts ltac:(lia)) as Q. rewrite F in Q. contradiction. }
  replace n with (8 * length ts + 7 + (n - (8 * length ts + 7))) by lia.
  rewrite G. replace (8 * length ts + 8) with (8 * length ts + 7 + 1) by lia. now rewrite G.
Qed.

Lemma parse_ends ts : parse ts <> Err EFuel.
Proof.
  intro E. pose proof (proj1 (enough (8 * length ts + 8)) ts ltac:(lia)) as Q.
  unfold parse in E. rewrite E in Q. exact Q.
Qed.

(** ** The theorems *)

Lemma parse_says ts e r : parse ts = Ok (e, r) -> exists s, ts = s ++ r /\ says 1 e s.
Proof. intro H. exact (proj1 (sound _) ts e r H). Qed.

Lemma says_parse_at e s r : says 1 e s -> follows 1 r -> parse (s ++ r) = Ok (e, r).
Proof.
  intros H F. destruct (proj1 (proj1 complete _ _ _ H) (le_n 1) r F) as (N & K). cbn in K.
  rewrite <- (parse_same (s ++ r) (N + (8 * length (s ++ r) + 7))) by lia. apply K. lia.
Qed.

Lemma stops_follows r : stops r -> follows 1 r.
Proof. destruct r as [|[]]; cbn; auto; contradiction. Qed.

Lemma says_parse e s r : says 1 e s -> stops r -> parse (s ++ r) = Ok (e, r).
Proof. intros H F. apply says_parse_at; auto using stops_follows. Qed.

Lemma parse_whole ts e : parse ts = Ok (e, []) <-> says 1 e ts.
Proof.
  split.
  - intro H. destruct (parse_says _ _ _ H) as (s & -> & Hs). now rewrite app_nil_r.
  - intro H. pose proof (says_parse e ts [] H I) as K. now rewrite app_nil_r in K.
Qed.

Lemma says_one e e' s : says 1 e s -> says 1 e' s -> e = e'.
Proof. intros H K. apply parse_whole in H. apply parse_whole in K. congruence. Qed.

(** ** Printing *)

Lemma show_says :
  (forall e p, 1 <= p <= 7 -> says p e (show p e)) /\
  (forall d, names d (showD d)) /\
  (forall es, es <> ANil -> lists es (showA es)).
Proof.
  apply expr_desig_args.
  - intros c p P. apply says_lit; lia.
  - intros d H p P. apply says_des; [lia|exact H].
  - intros d H p P. apply says_addr; [lia|exact H].
  - intros u e H p P. cbn [show]. apply says_un; [lia|]. apply H; lia.
  - intros o a HA b HB p P. cbn [show]. pose proof (prec_ge o).
    assert (B : forall q, q <= prec o ->
      says q (EBin o a b) (show (leftPrec o) a ++ TOp o :: show (S (prec o)) b)).
    { intros q Q. apply says_bin; [exact Q|apply HA|apply HB; lia].
      unfold leftPrec. destruct (prec o =? 4); lia. }
    destruct (p <=? prec o) eqn:L.
    + apply B. now apply Nat.leb_le.
    + apply says_par; [lia|]. apply B. lia.
  - intros c HC a HA b HB p P. cbn [show].
    assert (B : says 1 (ECond c a b) (show 2 c ++ TQuestion :: show 1 a ++ TColon :: show 1 b)).
    { apply says_cond; [lia|apply HC; lia|apply HA; lia|apply HB; lia]. }
    destruct (p <=? 1) eqn:L.
    + apply Nat.leb_le in L. eapply says_le; eauto.
    + apply says_par; [lia|]. exact B.
  - intro x. apply names_ident.
  - intros d H. apply names_deref, H.
  - intros d H e HE. apply names_index; [exact H|apply HE; lia].
  - intros d H x. apply names_field, H.
  - intros d H es HS. destruct es as [|e es]; [apply names_call0, H|].
    change (names (DCall d (ACons e es)) (showD d ++ TLpar :: showA (ACons e es) ++ [TRpar])).
    apply names_call; [exact H|]. apply HS. discriminate.
  - congruence.
  - intros e HE es HS _. destruct es as [|e' es].
    + apply lists_one, HE; lia.
    + change (lists (ACons e (ACons e' es)) (show 1 e ++ TComma :: showA (ACons e' es))).
      apply lists_cons; [apply HE; lia|]. apply HS. discriminate.
Qed.

Lemma parse_show e r : stops r -> parse (show 1 e ++ r) = Ok (e, r).
Proof. intro F. apply says_parse; [apply (proj1 show_says); lia|exact F]. Qed.

(** ** The operators outside brackets *)

Lemma no4 l : Forall (fun k => 5 <= k <= 6) l -> count_occ Nat.eq_dec l 4 = 0.
Proof.
  induction 1 as [|k l H _ IH]; cbn; [reflexivity|]. destruct (Nat.eq_dec k 4); [lia|exact IH].
Qed.

Lemma none7 l : Forall (fun k => 7 <= k <= 6) l -> l = [].
Proof. destruct 1; [reflexivity|lia]. Qed.

Lemma scan_texts :
  (forall p e s, says p e s ->
     exists l, (forall d t, scan false d (s ++ t) = (if d =? 0 then l else []) ++ scan true d t) /\
               Forall (fun k => p <= k <= 6) l /\
               (forall q, q <= 7 -> Forall (fun k => q <= k) l -> says q e s) /\
               (4 <= p -> count_occ Nat.eq_dec l 4 <= 1)) /\
  (forall d s, names d s -> forall b k t, scan b k (s ++ t) = scan true k t) /\
  (forall es s, lists es s -> forall k t, scan false (S k) (s ++ t) = scan true (S k) t).
Proof.
  apply says_names_lists.
  - intros p c P. exists []. split; [|split; [constructor|split]].
    + intros d t. cbn. now destruct (d =? 0).
    + intros. now apply says_lit.
    + cbn. lia.
  - intros p d s P N H. exists []. split; [|split; [constructor|split]].
    + intros k t. rewrite H. now destruct (k =? 0).
    + intros. now apply says_des.
    + cbn. lia.
  - intros p d s P N H. exists []. split; [|split; [constructor|split]].
    + intros k t. cbn. rewrite H. now destruct (k =? 0).
    + intros. now apply says_addr.
    + cbn. lia.
  - intros p u e s P S (l & H & G & _). apply none7 in G. subst l. exists [].
    split; [|split; [constructor|split]].
    + intros k t. destruct u; cbn; rewrite H; now destruct (k =? 0).
    + intros. now apply says_un.
    + cbn. lia.
  - intros p e s P S (l & H & G & _). exists [].
    split; [|split; [constructor|split]].
    + intros k t. cbn. rewrite <- app_assoc. rewrite H. cbn. now destruct (k =? 0).
    + intros. now apply says_par.
    + cbn. lia.
  - intros p o a b s t P SA (la & HA & GA & _) SB (lb & HB & GB & _).
    pose proof (prec_ge o). exists (la ++ prec o :: lb).
    assert (LP : prec o <= leftPrec o) by (unfold leftPrec; destruct (Nat.eqb_spec (prec o) 4); lia).
    split; [|split; [|split]].
    + intros k u. rewrite <- app_assoc. cbn. rewrite HA. cbn. rewrite HB.
      destruct (k =? 0); cbn; [|reflexivity]. rewrite <- app_assoc. reflexivity.
    + apply Forall_app. split; [eapply Forall_impl; [|exact GA]; cbn; lia|].
      constructor; [lia|]. eapply Forall_impl; [|exact GB]; cbn; lia.
    + intros q Q F. apply Forall_app in F. destruct F as (_ & F). inversion F; subst.
      apply says_bin; auto.
    + intro P4. rewrite count_occ_app. cbn.
      rewrite (no4 la), (no4 lb).
      * destruct (Nat.eq_dec (prec o) 4); lia.
      * eapply Forall_impl; [|exact GB]; cbn; lia.
      * eapply Forall_impl; [|exact GA]. cbn. intros k K.
        unfold leftPrec in K. destruct (Nat.eqb_spec (prec o) 4); lia.
  - intros p c a b s t u P SC (lc & HC & GC & _) SA (la & HA & GA & _) SB (lb & HB & GB & _).
    exists (lc ++ 1 :: la ++ 1 :: lb). split; [|split; [|split]].
    + intros k v. rewrite <- app_assoc. cbn. rewrite HC. cbn. rewrite <- app_assoc. cbn.
      rewrite HA. cbn. rewrite HB. destruct (k =? 0); cbn; [|reflexivity].
      repeat (rewrite <- app_assoc; cbn). reflexivity.
    + apply Forall_app. split; [eapply Forall_impl; [|exact GC]; cbn; lia|].
      constructor; [lia|]. apply Forall_app. split; [eapply Forall_impl; [|exact GA]; cbn; lia|].
      constructor; [lia|]. eapply Forall_impl; [|exact GB]; cbn; lia.
    + intros q Q F. apply Forall_app in F. destruct F as (_ & F). inversion F; subst.
      apply says_cond; auto.
    + lia.
  - reflexivity.
  - intros d s _ H b k t. rewrite <- app_assoc, H. reflexivity.
  - intros d e s t _ H _ (l & HE & _) b k u. rewrite <- app_assoc, H. cbn.
    rewrite <- app_assoc, HE. reflexivity.
  - intros d x s _ H b k t. rewrite <- app_assoc, H. reflexivity.
  - intros d s _ H b k t. rewrite <- app_assoc, H. reflexivity.
  - intros d es s t _ H _ HL b k u. rewrite <- app_assoc, H. cbn. rewrite <- app_assoc, HL. reflexivity.
  - intros d es s t _ H _ HL b k u. rewrite <- app_assoc, H. cbn. rewrite <- app_assoc, HL. reflexivity.
  - intros e s _ (l & HE & _) k t. rewrite HE. reflexivity.
  - intros e es s t _ (l & HE & _) _ HL k u. rewrite <- app_assoc, HE. cbn. apply HL.
Qed.

Lemma outer_of e s : says 1 e s -> exists l, outer s = l /\
  (forall q, q <= 7 -> Forall (fun k => q <= k) l -> says q e s).
Proof.
  intro H. destruct (proj1 scan_texts _ _ _ H) as (l & E & _ & R & _). exists l. split; [|exact R].
  specialize (E 0 []). cbn in E. rewrite !app_nil_r in E. exact E.
Qed.

Lemma says_ge p e s : says p e s -> Forall (fun k => p <= k) (outer s).
Proof.
  intro H. destruct (proj1 scan_texts _ _ _ H) as (l & E & G & _).
  specialize (E 0 []). cbn in E. rewrite !app_nil_r in E. unfold outer. rewrite E.
  eapply Forall_impl; [|exact G]. cbn. lia.
Qed.

(** The operator applied last is the rightmost of the lowest precedence. *)
Lemma last_applied s t a b o :
  parse s = Ok (a, []) -> parse t = Ok (b, []) ->
  Forall (fun k => leftPrec o <= k) (outer s) -> Forall (fun k => prec o < k) (outer t) ->
  parse (s ++ TOp o :: t) = Ok (EBin o a b, []).
Proof.
  intros HS HT FS FT. apply parse_whole in HS. apply parse_whole in HT. apply parse_whole.
  destruct (outer_of _ _ HS) as (l & <- & RS). destruct (outer_of _ _ HT) as (l' & <- & RT).
  pose proof (prec_ge o). apply says_bin; [lia|apply RS|apply RT]; auto.
  - unfold leftPrec. destruct (prec o =? 4); lia.
  - lia.
Qed.

(** And every way to read a binary operation splits so. *)
Lemma last_split ts o a b :
  parse ts = Ok (EBin o a b, []) ->
  (exists s t, ts = s ++ TOp o :: t /\ parse s = Ok (a, []) /\ parse t = Ok (b, []) /\
     Forall (fun k => leftPrec o <= k) (outer s) /\ Forall (fun k => prec o < k) (outer t)) \/
  (exists s, ts = TLpar :: s ++ [TRpar] /\ parse s = Ok (EBin o a b, [])).
Proof.
  intro H. apply parse_whole in H. inversion H; subst.
  - right. exists s. split; [reflexivity|]. now apply parse_whole.
  - left. exists s, t. split; [reflexivity|]. pose proof (prec_ge o).
    split; [apply parse_whole; eapply says_le; [eassumption|unfold leftPrec; destruct (prec o =? 4); lia]|].
    split; [apply parse_whole; eapply says_le; [eassumption|lia]|].
    split; [eapply says_ge; eassumption|]. eapply (says_ge (S (prec o))); eassumption.
Qed.

(** The condition of a conditional expression reaches to its left end, the last alternative to the
    right end. *)
Lemma cond_applied s t u c a b :
  parse s = Ok (c, []) -> parse t = Ok (a, []) -> parse u = Ok (b, []) ->
  Forall (fun k => 2 <= k) (outer s) ->
  parse (s ++ TQuestion :: t ++ TColon :: u) = Ok (ECond c a b, []).
Proof.
  intros HS HT HU FS. apply parse_whole in HS. apply parse_whole in HT. apply parse_whole in HU.
  apply parse_whole. destruct (outer_of _ _ HS) as (l & <- & RS).
  apply says_cond; auto. apply RS; [lia|auto].
Qed.

(** Comparisons do not chain. *)
Lemma no_chain s e :
  Forall (fun k => 4 <= k) (outer s) -> 2 <= count_occ Nat.eq_dec (outer s) 4 ->
  parse s <> Ok (e, []).
Proof.
  intros F C H. apply parse_whole in H.
  destruct (outer_of _ _ H) as (l & <- & R). specialize (R 4 ltac:(lia) F).
  destruct (proj1 scan_texts _ _ _ R) as (l & E & _ & _ & K).
  specialize (E 0 []). cbn in E. rewrite !app_nil_r in E. unfold outer in C. rewrite E in C.
  specialize (K ltac:(lia)). lia.
Qed.

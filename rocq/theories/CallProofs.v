(** Proofs about CallModel.v: the stack in memory behaves as the ideal stack of frames. *)
From Coq Require Import ZArith Lia Bool List ZifyBool.
From Verif Require Import Base CallModel CallSpec.
Import ListNotations.
Local Open Scope Z_scope.

Definition sim {A B} (R : A -> B -> Prop) (c : outcome A) (a : outcome B) : Prop :=
  match a with UB => True | Err e => c = Err e | Ok y => exists x, c = Ok x /\ R x y end.
Lemma sim_bind : forall A B C D (R : A -> B -> Prop) (Q : C -> D -> Prop) c a f g,
  sim R c a -> (forall x y, a = Ok y -> R x y -> sim Q (f x) (g y)) -> sim Q (bind c f) (bind a g).
Proof.
  intros A B C D R Q c a f g H F. destruct a as [y|e|]; cbn in *; [|rewrite H; reflexivity|exact Logic.I].
  destruct H as (x & -> & X). cbn. apply F; [reflexivity|exact X].
Qed.
Lemma sim_ok : forall A B (R : A -> B -> Prop) x y, R x y -> sim R (Ok x) (Ok y).
Proof. intros. cbn. eauto. Qed.
Lemma sim_imp : forall A B (R Q : A -> B -> Prop) c a, sim R c a -> (forall x y, R x y -> Q x y) -> sim Q c a.
Proof. intros A B R Q c a H F. destruct a; cbn in *; auto. destruct H as (x & E & X). eauto. Qed.

(** ** Lists *)
Lemma len_nil : forall A, len (@nil A) = 0. Proof. reflexivity. Qed.
Lemma len_cons : forall A (x : A) l, len (x :: l) = 1 + len l. Proof. intros. unfold len. cbn [length]. lia. Qed.
Lemma len_app : forall A (l k : list A), len (l ++ k) = len l + len k. Proof. intros. unfold len. rewrite app_length. lia. Qed.
Lemma len_nonneg : forall A (l : list A), 0 <= len l. Proof. intros. unfold len. lia. Qed.
Lemma len_upd : forall A (l : list A) n x, len (upd l n x) = len l.
Proof. intros A l. induction l as [|a l IH]; intros [|n] x; cbn [upd]; rewrite ?len_cons, ?IH; auto. Qed.
Lemma length_upd : forall A (l : list A) n x, length (upd l n x) = length l.
Proof. intros A l. induction l as [|a l IH]; intros [|n] x; cbn [upd length]; rewrite ?IH; auto. Qed.
Lemma len_repeat : forall A (x : A) n, len (repeat x n) = Z.of_nat n. Proof. intros. unfold len. rewrite repeat_length. reflexivity. Qed.
Lemma upd_app1 : forall A (l k : list A) n x, (n < length l)%nat -> upd (l ++ k) n x = upd l n x ++ k.
Proof.
  intros A l. induction l as [|a l IH]; intros k n x H; cbn in *; [lia|]. destruct n; cbn; [reflexivity|]. rewrite IH by lia. reflexivity.
Qed.
Lemma upd_app2 : forall A (l k : list A) n x, (length l <= n)%nat -> upd (l ++ k) n x = l ++ upd k (n - length l) x.
Proof.
  intros A l. induction l as [|a l IH]; intros k n x H; cbn in *; [f_equal; lia|]. destruct n; cbn; [lia|]. rewrite IH by lia. reflexivity.
Qed.
Lemma nth_app1 : forall A (l k : list A) n d, (n < length l)%nat -> nth n (l ++ k) d = nth n l d.
Proof. intros. apply app_nth1. lia. Qed.
Lemma nth_upd_same : forall A (l : list A) n x d, (n < length l)%nat -> nth n (upd l n x) d = x.
Proof. intros A l. induction l as [|a l IH]; intros [|n] x d H; cbn in *; try lia; auto. apply IH. lia. Qed.
Lemma nth_upd_other : forall A (l : list A) n m x d, n <> m -> nth m (upd l n x) d = nth m l d.
Proof. intros A l. induction l as [|a l IH]; intros [|n] [|m] x d H; cbn in *; try lia; auto. Qed.

(** ** Flat stacks *)
Definition tailS (size : Z) (s : stk) : list val :=
  match s with Bot _ g => [g] | Frame _ loc l refs r ps u => loc ++ VL l :: VZ refs :: VB (base_of size u) :: VZ r :: ps ++ flat size u end.
Lemma flat_split : forall size s, flat size s = sops_of s ++ tailS size s.
Proof. intros size []; reflexivity. Qed.
Lemma flat_set : forall size s o, flat size (set_ops s o) = o ++ tailS size s.
Proof. intros size [] o; reflexivity. Qed.
Lemma tail_set : forall size s o, tailS size (set_ops s o) = tailS size s.
Proof. intros size [] o; reflexivity. Qed.
Lemma base_set : forall size s o, base_of size (set_ops s o) = base_of size s.
Proof. intros size [] o; reflexivity. Qed.
Lemma wf_set : forall s o, wfS s -> wfS (set_ops s o).
Proof. intros [] o H; exact H. Qed.
Lemma sops_set : forall s o, sops_of (set_ops s o) = o.
Proof. intros [] o; reflexivity. Qed.
Lemma set_set : forall s o p, set_ops (set_ops s o) p = set_ops s p.
Proof. intros [] o p; reflexivity. Qed.
Lemma len_flat : forall size s, len (flat size s) = slen s.
Proof.
  intros size s. induction s as [o g|o loc l n r ps u IH]; cbn [flat slen].
  - rewrite len_app. reflexivity.
  - repeat first [rewrite len_app | rewrite len_cons]. lia.
Qed.
Lemma slen_set : forall s o, slen (set_ops s o) = slen s - len (sops_of s) + len o.
Proof. intros [] o; cbn [set_ops slen sops_of]; lia. Qed.
Lemma slen_pos : forall s, len (sops_of s) + 1 <= slen s.
Proof.
  induction s as [o g|o loc l n r ps u IH]; cbn [slen sops_of]; [lia|].
  pose proof (len_nonneg _ loc). pose proof (len_nonneg _ ps). pose proof (len_nonneg _ (sops_of u)). lia.
Qed.

Lemma repr_iff : forall c a, repr c a <->
  exists pre, c_mem c = pre ++ flat (a_size a) (a_stk a) /\ len pre = a_top a /\ c_top c = a_top a /\
              c_base c = base_of (a_size a) (a_stk a) /\ wfS (a_stk a).
Proof.
  intros c a. unfold repr, c_size. split.
  - intros (S & T0 & T & F & B & W). exists (firstn (Z.to_nat (a_top a)) (c_mem c)).
    rewrite <- F, firstn_skipn. split; [reflexivity|]. split; [|auto].
    unfold len. rewrite firstn_length. unfold a_top in *. pose proof (slen_pos (a_stk a)). pose proof (len_nonneg _ (sops_of (a_stk a))). lia.
  - intros (pre & E & L & T & B & W). rewrite E. rewrite app_length.
    assert (LF := len_flat (a_size a) (a_stk a)). unfold len in *. unfold a_top in *.
    split; [lia|]. split; [lia|]. split; [exact T|]. split; [|auto].
    rewrite <- L, Nat2Z.id. rewrite skipn_app, skipn_all, Nat.sub_diag. reflexivity.
Qed.
Lemma sim_push : forall c a ws, repr c a -> len ws <= a_top a -> sim repr (c_push c ws) (a_push a ws).
Proof.
  intros c a ws H L. apply repr_iff in H as (pre & E & P & T & B & W).
  assert (LF := len_flat (a_size a) (a_stk a)). pose proof (slen_pos (a_stk a)) as SP. pose proof (len_nonneg _ (sops_of (a_stk a))) as N0.
  pose proof (len_nonneg _ ws) as NW.
  cbn [sim a_push]. unfold c_push, c_size. rewrite E, T, app_length.
  replace ((a_top a - Z.of_nat (length ws) <? 0) || (Z.of_nat (length pre + length (flat (a_size a) (a_stk a))) <? a_top a)) with false
    by (unfold len in *; lia).
  eexists. split; [reflexivity|]. apply repr_iff. cbn [c_mem c_top c_base a_size a_stk].
  exists (firstn (Z.to_nat (a_top a - len ws)) pre). rewrite flat_set, base_set, <- !app_assoc.
  rewrite firstn_app, skipn_app.
  replace (Z.to_nat (a_top a - Z.of_nat (length ws)) - length pre)%nat with 0%nat by (unfold len in *; lia). cbn [firstn]. rewrite app_nil_r.
  replace (Z.to_nat (a_top a)) with (length pre) by (unfold len in *; lia). rewrite skipn_all, Nat.sub_diag. cbn [skipn app].
  split; [rewrite <- flat_split; reflexivity|].
  unfold a_top. cbn [a_size a_stk]. rewrite slen_set, len_app.
  split; [unfold len; rewrite firstn_length; unfold len, a_top in *; lia|].
  split; [unfold a_top, len in *; lia|]. split; [exact B|]. apply wf_set; exact W.
Qed.
Lemma sim_pop : forall c a n, repr c a -> sim (fun x y => fst x = fst y /\ repr (snd x) (snd y)) (c_pop c n) (a_pop a n).
Proof.
  intros c a n H. apply repr_iff in H as (pre & E & P & T & B & W).
  assert (LF := len_flat (a_size a) (a_stk a)). pose proof (slen_pos (a_stk a)) as SP. pose proof (len_nonneg _ pre) as NP.
  unfold a_pop. destruct (Nat.leb_spec n (length (sops_of (a_stk a)))) as [L|L]; [|exact Logic.I]. cbn [sim].
  unfold c_pop, c_size. rewrite E, T, app_length.
  replace ((a_top a <? 0) || (Z.of_nat (length pre + length (flat (a_size a) (a_stk a))) <? a_top a + Z.of_nat n)) with false
    by (unfold len in *; lia).
  eexists. split; [reflexivity|]. cbn [fst snd].
  replace (Z.to_nat (a_top a)) with (length pre) by (unfold len in *; lia). rewrite skipn_app, skipn_all, Nat.sub_diag. cbn [skipn app].
  rewrite flat_split, firstn_app. replace (n - length (sops_of (a_stk a)))%nat with 0%nat by lia. cbn [firstn]. rewrite app_nil_r.
  split; [reflexivity|]. apply repr_iff. cbn [c_mem c_top c_base a_size a_stk].
  exists (pre ++ firstn n (sops_of (a_stk a))). rewrite flat_set, base_set, <- !app_assoc.
  split; [f_equal; rewrite app_assoc, firstn_skipn; reflexivity|].
  unfold a_top. cbn [a_size a_stk]. rewrite slen_set, len_app.
  assert (len (firstn n (sops_of (a_stk a))) = Z.of_nat n) as LN by (unfold len; rewrite firstn_length; lia).
  assert (len (skipn n (sops_of (a_stk a))) = len (sops_of (a_stk a)) - Z.of_nat n) as LS by (unfold len; rewrite skipn_length; lia).
  split; [unfold a_top in *; lia|]. split; [unfold a_top in *; lia|]. split; [exact B|]. apply wf_set; exact W.
Qed.

(** Reading and writing variables. *)
Lemma read_flat : forall size s i v pre, readS size s i = Ok v -> len pre = size - slen s ->
  0 <= i < size /\ nth (Z.to_nat i) (pre ++ flat size s) (VZ 0) = v.
Proof.
  intros size s. induction s as [o g|o loc l n r ps u IH]; intros i v pre R P; cbn [readS] in R; [discriminate|].
  pose proof (len_nonneg _ pre) as N1. pose proof (len_nonneg _ loc) as N2. pose proof (len_nonneg _ ps) as N3. pose proof (len_nonneg _ o) as N4.
  pose proof (slen_pos u) as N5. pose proof (len_nonneg _ (sops_of u)) as N6.
  cbn [slen base_of] in *. set (b := size - slen u - len ps - 2) in *.
  cbn [flat].
  destruct (Z.leb_spec (size - slen u) i) as [A|A].
  - replace (pre ++ o ++ loc ++ VL l :: VZ n :: VB (base_of size u) :: VZ r :: ps ++ flat size u)
      with ((pre ++ o ++ loc ++ [VL l; VZ n; VB (base_of size u); VZ r] ++ ps) ++ flat size u) by (rewrite <- !app_assoc; reflexivity).
    apply IH; [exact R|]. rewrite !len_app. unfold len in *; cbn [length] in *. lia.
  - destruct (Z.leb_spec (b + 2) i) as [A2|A2].
    + injection R as <-. split; [lia|].
      replace (pre ++ o ++ loc ++ VL l :: VZ n :: VB (base_of size u) :: VZ r :: ps ++ flat size u)
        with ((pre ++ o ++ loc ++ [VL l; VZ n; VB (base_of size u); VZ r]) ++ ps ++ flat size u) by (rewrite <- !app_assoc; reflexivity).
      rewrite app_nth2; rewrite !app_length; cbn [length]; [|unfold len in *; lia].
      rewrite app_nth1; [f_equal|]; unfold len in *; lia.
    + destruct ((b - 2 - len loc <=? i) && (i <? b - 2)) eqn:Q; [|discriminate]. injection R as <-. split; [lia|].
      rewrite (app_assoc pre). rewrite app_nth2; rewrite !app_length; [|unfold len in *; lia].
      rewrite app_nth1; [f_equal|]; unfold len in *; lia.
Qed.
Lemma write_flat : forall size s i w s' pre, writeS size s i w = Ok s' -> len pre = size - slen s ->
  0 <= i < size /\ upd (pre ++ flat size s) (Z.to_nat i) w = pre ++ flat size s' /\ slen s' = slen s /\ base_of size s' = base_of size s /\
  (wfS s -> wfS s').
Proof.
  intros size s. induction s as [o g|o loc l n r ps u IH]; intros i w s' pre R P; cbn [writeS] in R; [discriminate|].
  pose proof (len_nonneg _ pre) as N1. pose proof (len_nonneg _ loc) as N2. pose proof (len_nonneg _ ps) as N3. pose proof (len_nonneg _ o) as N4.
  pose proof (slen_pos u) as N5. pose proof (len_nonneg _ (sops_of u)) as N6.
  cbn [slen base_of] in *. set (b := size - slen u - len ps - 2) in *.
  cbn [flat].
  destruct (Z.leb_spec (size - slen u) i) as [A|A].
  - destruct (writeS size u i w) as [u'|e|] eqn:EU; cbn [bind] in R; try discriminate. injection R as <-. cbn [flat slen base_of wfS].
    replace (pre ++ o ++ loc ++ VL l :: VZ n :: VB (base_of size u) :: VZ r :: ps ++ flat size u)
      with ((pre ++ o ++ loc ++ [VL l; VZ n; VB (base_of size u); VZ r] ++ ps) ++ flat size u) by (rewrite <- !app_assoc; reflexivity).
    destruct (IH i w u' (pre ++ o ++ loc ++ [VL l; VZ n; VB (base_of size u); VZ r] ++ ps) EU) as (B & U & L & BB & W).
    { rewrite !len_app. unfold len in *; cbn [length] in *. lia. }
    split; [lia|]. split; [rewrite U, BB, <- !app_assoc; reflexivity|]. split; [lia|]. split; [lia|]. intros (W1 & W2 & W3). auto.
  - destruct (Z.leb_spec (b + 2) i) as [A2|A2].
    + injection R as <-. cbn [flat slen base_of wfS]. rewrite !len_upd. split; [lia|].
      replace (pre ++ o ++ loc ++ VL l :: VZ n :: VB (base_of size u) :: VZ r :: ps ++ flat size u)
        with ((pre ++ o ++ loc ++ [VL l; VZ n; VB (base_of size u); VZ r]) ++ ps ++ flat size u) by (rewrite <- !app_assoc; reflexivity).
      rewrite upd_app2; rewrite !app_length; cbn [length]; [|unfold len in *; lia].
      rewrite upd_app1; [|unfold len in *; lia].
      split; [rewrite <- !app_assoc; cbn [app]; do 9 f_equal; unfold len in *; lia|]. split; [lia|]. split; [lia|]. auto.
    + destruct ((b - 2 - len loc <=? i) && (i <? b - 2)) eqn:Q; [|discriminate]. injection R as <-. cbn [flat slen base_of wfS]. rewrite !len_upd. split; [lia|].
      rewrite (app_assoc pre). rewrite upd_app2; rewrite !app_length; [|unfold len in *; lia].
      rewrite upd_app1; [|unfold len in *; lia].
      split; [rewrite <- !app_assoc; do 4 f_equal; unfold len in *; lia|]. split; [lia|]. split; [lia|]. auto.
Qed.
Lemma repr_size : forall c a, repr c a -> c_size c = a_size a.
Proof. intros c a (S & _). exact S. Qed.
Lemma repr_top : forall c a, repr c a -> c_top c = a_top a.
Proof. intros c a (_ & _ & T & _). exact T. Qed.
Lemma sim_read : forall c a i, repr c a -> sim eq (c_read c i) (a_read a i).
Proof.
  intros c a i H. unfold a_read. destruct (readS (a_size a) (a_stk a) i) as [v|e|] eqn:R; cbn [sim].
  - pose proof (repr_size _ _ H) as S. apply repr_iff in H as (pre & E & P & _).
    destruct (read_flat _ _ _ _ pre R P) as (B & N). unfold c_read. rewrite S.
    replace ((0 <=? i) && (i <? a_size a)) with true by lia. rewrite E, N. eauto.
  - exfalso. clear H. revert i e R. generalize (a_size a). generalize (a_stk a). induction s as [o g|o loc l n r ps u IH]; intros size i e R; cbn [readS] in R; [discriminate|].
    destruct (_ <=? _); [eapply IH; exact R|]. destruct (_ <=? _); [discriminate|]. destruct (_ && _); discriminate.
  - exact Logic.I.
Qed.
Lemma writeS_err : forall size s i w e, writeS size s i w <> Err e.
Proof.
  intros size s. induction s as [o g|o loc l n r ps u IH]; intros i w e R; cbn [writeS] in R; [discriminate|].
  destruct (_ <=? _); [destruct (writeS size u i w) eqn:Q; cbn [bind] in R; try discriminate; eapply IH; rewrite Q; rewrite R; reflexivity|].
  destruct (_ <=? _); [discriminate|]. destruct (_ && _); discriminate.
Qed.
Lemma sim_write : forall c a i w, repr c a -> sim repr (c_write c i w) (a_write a i w).
Proof.
  intros c a i w H. unfold a_write. destruct (writeS (a_size a) (a_stk a) i w) as [s|e|] eqn:R; cbn [sim bind].
  - pose proof (repr_size _ _ H) as S. apply repr_iff in H as (pre & E & P & T & B & W).
    destruct (write_flat _ _ _ _ _ pre R P) as (I & N & SL & BB & WW). unfold c_write. rewrite S.
    replace ((0 <=? i) && (i <? a_size a)) with true by lia. eexists. split; [reflexivity|].
    apply repr_iff. exists pre. unfold a_top in *. cbn [c_mem c_top c_base a_size a_stk]. rewrite E, N, SL, BB. split; [reflexivity|]. auto.
  - exfalso. eapply writeS_err. exact R.
  - exact Logic.I.
Qed.
Lemma sim_local : forall c a off, repr c a -> sim eq (c_local c off) (a_local a off).
Proof. intros c a off (_ & _ & _ & _ & B & _). unfold c_local, a_local. rewrite B. cbn [sim]. eauto. Qed.

(** The header of the frame at the top of a part of the stack. *)
Lemma header : forall size c pre o loc l n r ps u, c_mem c = pre ++ flat size (Frame o loc l n r ps u) -> len pre = size - slen (Frame o loc l n r ps u) ->
  let b := base_of size (Frame o loc l n r ps u) in
  c_layout c b = Ok l /\ c_refs c b = Ok n /\ c_read c b = Ok (VB (base_of size u)) /\ c_ret c b = Ok r.
Proof.
  intros size c pre o loc l n r ps u E P b.
  assert (LF := len_flat size (Frame o loc l n r ps u)).
  pose proof (len_nonneg _ pre) as N1. pose proof (len_nonneg _ loc) as N2. pose proof (len_nonneg _ ps) as N3. pose proof (len_nonneg _ o) as N4.
  pose proof (slen_pos u) as N5. pose proof (len_nonneg _ (sops_of u)) as N6.
  assert (c_size c = size) as S. { unfold c_size. rewrite E, app_length. unfold len in *. lia. }
  cbn [slen base_of flat] in *. subst b.
  assert (forall k w, 0 <= k < 4 -> nth (Z.to_nat k) [VL l; VZ n; VB (base_of size u); VZ r] (VZ 0) = w ->
          c_read c (size - slen u - len ps - 4 + k) = Ok w) as RD.
  { intros k w K N. unfold c_read. rewrite S. replace ((0 <=? _) && (_ <? size)) with true by lia. f_equal. rewrite E.
    replace (pre ++ o ++ loc ++ VL l :: VZ n :: VB (base_of size u) :: VZ r :: ps ++ flat size u)
        with ((pre ++ o ++ loc) ++ [VL l; VZ n; VB (base_of size u); VZ r] ++ ps ++ flat size u) by (rewrite <- !app_assoc; reflexivity).
    rewrite app_nth2; rewrite !app_length; [|unfold len in *; lia].
    rewrite app_nth1; [|cbn [length]; unfold len in *; lia]. rewrite <- N. f_equal. unfold len in *. lia. }
  unfold c_layout, c_refs, c_ret.
  replace (size - slen u - len ps - 2 - 2) with (size - slen u - len ps - 4 + 0) by lia. rewrite (RD 0 (VL l)) by (lia || reflexivity).
  replace (size - slen u - len ps - 2 - 1) with (size - slen u - len ps - 4 + 1) by lia. rewrite (RD 1 (VZ n)) by (lia || reflexivity).
  replace (size - slen u - len ps - 2 + 1) with (size - slen u - len ps - 4 + 3) by lia. rewrite (RD 3 (VZ r)) by (lia || reflexivity).
  replace (size - slen u - len ps - 2) with (size - slen u - len ps - 4 + 2) by lia. rewrite (RD 2 (VB (base_of size u))) by (lia || reflexivity).
  auto.
Qed.
Lemma sim_params : forall c a, repr c a -> sim eq (c_params c) (a_params a).
Proof.
  intros c a H. unfold a_params. destruct a as [size s]. destruct s as [o g|o loc l n r ps u]; [exact Logic.I|]. cbn [a_stk sim].
  pose proof (repr_size _ _ H) as S. apply repr_iff in H as (pre & E & P & T & B & W). cbn [a_size a_stk a_top] in *.
  destruct (header size c pre o loc l n r ps u E P) as (HL & _).
  pose proof (len_nonneg _ pre) as N1. pose proof (len_nonneg _ loc) as N2. pose proof (len_nonneg _ ps) as N3. pose proof (len_nonneg _ o) as N4.
  pose proof (slen_pos u) as N5. pose proof (len_nonneg _ (sops_of u)) as N6.
  unfold c_params. rewrite B, HL. cbn [bind]. rewrite S. unfold a_top in P. cbn [a_size a_stk] in P.
  destruct W as (W1 & W2 & W3). cbn [base_of slen] in *.
  replace ((_ <? 0) || (_ <? _)) with false by lia. eexists. split; [reflexivity|]. rewrite E. cbn [flat].
  replace (pre ++ o ++ loc ++ VL l :: VZ n :: VB (base_of size u) :: VZ r :: ps ++ flat size u)
        with ((pre ++ o ++ loc ++ [VL l; VZ n; VB (base_of size u); VZ r]) ++ ps ++ flat size u) by (rewrite <- !app_assoc; reflexivity).
  set (q := pre ++ o ++ loc ++ [VL l; VZ n; VB (base_of size u); VZ r]).
  assert (len q = size - slen u - len ps) as LQ. { subst q. rewrite !len_app. unfold len in *; cbn [length] in *. lia. }
  replace (Z.to_nat (size - slen u - len ps - 2 + 2)) with (length q) by (unfold len in *; lia).
  rewrite skipn_app, skipn_all, Nat.sub_diag. cbn [skipn app]. rewrite <- W1. unfold len. rewrite Nat2Z.id, firstn_app, firstn_all, Nat.sub_diag. cbn. apply app_nil_r.
Qed.
Lemma firstn_pre : forall A (pre k ws : list A) t, len pre = t -> len ws <= t ->
  firstn (Z.to_nat (t - len ws)) (pre ++ k) = firstn (Z.to_nat (t - len ws)) pre.
Proof. intros A pre k ws t P L. rewrite firstn_app. replace (_ - length pre)%nat with 0%nat by (unfold len in *; lia). cbn. apply app_nil_r. Qed.
(** Pushing onto raw memory. *)
Lemma push_raw : forall pre rest b ws, len ws <= len pre ->
  c_push (MkC (pre ++ rest) (len pre) b) ws = Ok (MkC (firstn (Z.to_nat (len pre - len ws)) pre ++ ws ++ rest) (len pre - len ws) b).
Proof.
  intros pre rest b ws L. unfold c_push, c_size. cbn [c_mem c_top c_base]. rewrite app_length.
  pose proof (len_nonneg _ ws). fold (len ws).
  replace ((_ <? 0) || (_ <? _)) with false by (unfold len in *; lia). do 2 f_equal.
  rewrite firstn_pre by auto. do 2 f_equal. unfold len. rewrite Nat2Z.id, skipn_app, skipn_all, Nat.sub_diag. reflexivity.
Qed.
Lemma len_firstn : forall A (l : list A) n, 0 <= n <= len l -> len (firstn (Z.to_nat n) l) = n.
Proof. intros. unfold len in *. rewrite firstn_length. lia. Qed.
Lemma sim_enter : forall c a l, repr c a -> l_locals l + 3 <= a_top a -> sim repr (c_enter c l) (a_enter a l).
Proof.
  intros c a l H L. unfold a_enter. destruct ((l_locals l <? 0) || (l_params l <? 0)) eqn:N; [exact Logic.I|].
  destruct (sops_of (a_stk a)) as [|[r| | | |] rest] eqn:SO; try exact Logic.I.
  destruct (Nat.leb_spec (Z.to_nat (l_params l)) (length rest)) as [Q|Q]; [|exact Logic.I]. cbn [sim].
  apply repr_iff in H as (pre & E & P & T & B & W). destruct c as [mem top base]. cbn [c_mem c_top c_base] in *. subst mem top base.
  set (n := Z.to_nat (l_params l)) in *.
  unfold c_enter. replace (l_locals l <? 0) with false by lia. rewrite <- P. cbn [c_base].
  rewrite push_raw by (cbn; lia). cbn [bind c_top]. change (len [VB (base_of (a_size a) (a_stk a))]) with 1.
  set (pre1 := firstn (Z.to_nat (len pre - 1)) pre). assert (len pre1 = len pre - 1) as L1 by (apply len_firstn; lia).
  rewrite <- L1. rewrite push_raw by (cbn; lia). cbn [bind]. change (len [VZ 0]) with 1.
  set (pre2 := firstn (Z.to_nat (len pre1 - 1)) pre1). assert (len pre2 = len pre1 - 1) as L2 by (apply len_firstn; lia).
  rewrite <- L2. rewrite push_raw by (cbn; lia). cbn [bind]. change (len [VL l]) with 1.
  set (pre3 := firstn (Z.to_nat (len pre2 - 1)) pre2). assert (len pre3 = len pre2 - 1) as L3 by (apply len_firstn; lia).
  rewrite <- L3. rewrite push_raw by (rewrite len_repeat; lia). cbn [bind c_mem c_top]. rewrite len_repeat.
  eexists. split; [reflexivity|]. apply repr_iff. cbn [c_mem c_top c_base a_size a_stk].
  eexists. split; [|split; [|split; [|split]]].
  - cbn [flat app]. f_equal. f_equal. rewrite base_set, flat_set. cbn [app]. do 3 f_equal.
    rewrite (flat_split _ (a_stk a)), SO. cbn [app]. f_equal. rewrite app_assoc, firstn_skipn. reflexivity.
  - rewrite len_firstn by lia. unfold a_top in *. cbn [a_size a_stk slen]. rewrite slen_set, SO, len_cons, len_repeat, len_nil.
    replace (len (firstn n rest)) with (Z.of_nat n) by (unfold len; rewrite firstn_length; lia).
    replace (len (skipn n rest)) with (len rest - Z.of_nat n) by (unfold len; rewrite skipn_length; lia). lia.
  - unfold a_top in *. cbn [a_size a_stk slen]. rewrite slen_set, SO, len_cons, len_repeat, len_nil.
    replace (len (firstn n rest)) with (Z.of_nat n) by (unfold len; rewrite firstn_length; lia).
    replace (len (skipn n rest)) with (len rest - Z.of_nat n) by (unfold len; rewrite skipn_length; lia). lia.
  - cbn [base_of]. rewrite slen_set, SO, len_cons. unfold a_top in *.
    replace (len (firstn n rest)) with (Z.of_nat n) by (unfold len; rewrite firstn_length; lia).
    replace (len (skipn n rest)) with (len rest - Z.of_nat n) by (unfold len; rewrite skipn_length; lia). lia.
  - cbn [wfS]. rewrite len_repeat. replace (len (firstn n rest)) with (Z.of_nat n) by (unfold len; rewrite firstn_length; lia).
    split; [lia|]. split; [lia|]. apply wf_set, W.
Qed.
Lemma sim_leave : forall c a, repr c a -> sim repr (c_leave c) (a_leave a).
Proof.
  intros c a H. unfold a_leave. destruct a as [size s]. destruct s as [o g|o loc l n r ps u]; [exact Logic.I|]. cbn [a_stk a_size].
  pose proof (repr_size _ _ H) as S. apply repr_iff in H as (pre & E & P & T & B & W). cbn [a_size a_stk] in *.
  destruct (header size c pre o loc l n r ps u E P) as (HL & HR & HB & HT). rewrite <- B in *.
  unfold c_leave. rewrite HR. cbn [bind]. destruct (Z.eqb_spec n 0) as [->|NZ]; cbn [negb sim]; [|reflexivity].
  pose proof (len_nonneg _ pre) as N1. pose proof (len_nonneg _ loc) as N2. pose proof (len_nonneg _ ps) as N3. pose proof (len_nonneg _ o) as N4.
  pose proof (slen_pos u) as N5. pose proof (len_nonneg _ (sops_of u)) as N6.
  unfold a_top in *. cbn [a_size a_stk base_of slen] in *.
  unfold c_pop, c_size. cbn [c_top c_mem c_base]. fold (c_size c). rewrite S, B.
  replace ((_ <? 0) || (_ <? _)) with false by lia. cbn [bind].
  set (q := pre ++ o ++ loc ++ [VL l; VZ 0]).
  assert (len q = size - slen u - len ps - 2) as LQ. { subst q. rewrite !len_app. unfold len in *; cbn [length] in *. lia. }
  assert (c_mem c = q ++ VB (base_of size u) :: VZ r :: ps ++ flat size u) as EQ.
  { rewrite E. subst q. cbn [flat]. rewrite <- !app_assoc. reflexivity. }
  replace (Z.to_nat (size - slen u - len ps - 2)) with (length q) by (unfold len in *; lia).
  rewrite EQ, skipn_app, skipn_all, Nat.sub_diag. cbn [skipn app firstn].
  eexists. split; [reflexivity|]. apply repr_iff. cbn [c_mem c_top c_base a_size a_stk].
  exists (q ++ [VB (base_of size u)]). rewrite flat_set, base_set. destruct W as (W1 & W2 & W3).
  split; [rewrite (flat_split size u), <- !app_assoc; cbn [app]; rewrite <- !app_assoc; reflexivity|].
  unfold a_top. cbn [a_size a_stk]. rewrite slen_set, len_cons, !len_app. change (len [VB (base_of size u)]) with 1.
  split; [lia|]. split; [lia|]. split; [reflexivity|]. apply wf_set, W3.
Qed.
Lemma wf_len : forall s, wfS s -> True. Proof. auto. Qed.
Lemma sim_find : forall s size c pre i d k, c_mem c = pre ++ flat size s -> len pre = size - slen s -> wfS s -> slen s <= Z.of_nat k ->
  match refS size s i d with
  | UB => True
  | Err e => c_findFrame k c (base_of size s) i = Err e
  | Ok s' => exists b n, c_findFrame k c (base_of size s) i = Ok b /\ c_refs c b = Ok n /\ 0 <= b - 1 < size /\
             upd (c_mem c) (Z.to_nat (b - 1)) (VZ (n + d)) = pre ++ flat size s' /\ slen s' = slen s /\ base_of size s' = base_of size s /\ wfS s'
  end.
Proof.
  induction s as [o g|o loc l n r ps u IH]; intros size c pre i d k E P W K; [exact Logic.I|].
  destruct (header size c pre o loc l n r ps u E P) as (HL & HR & HB & HT).
  pose proof (len_nonneg _ pre) as N1. pose proof (len_nonneg _ loc) as N2. pose proof (len_nonneg _ ps) as N3. pose proof (len_nonneg _ o) as N4.
  pose proof (slen_pos u) as N5. pose proof (len_nonneg _ (sops_of u)) as N6.
  destruct W as (W1 & W2 & W3). cbn [slen] in *.
  destruct k as [|k]; [lia|]. cbn [c_findFrame refS]. rewrite HL. cbn [bind]. 
  replace (base_of size (Frame o loc l n r ps u) + 2 + l_params l) with (size - slen u) by (cbn [base_of]; lia).
  destruct (Z.ltb_spec i (size - slen u)) as [A|A].
  - eexists _, n. split; [reflexivity|]. split; [exact HR|]. cbn [base_of]. split; [lia|].
    split; [|split; [reflexivity|]; split; [reflexivity|]; cbn [wfS]; auto].
    rewrite E. cbn [flat].
    replace (pre ++ o ++ loc ++ VL l :: VZ n :: VB (base_of size u) :: VZ r :: ps ++ flat size u)
        with ((pre ++ o ++ loc ++ [VL l]) ++ VZ n :: VB (base_of size u) :: VZ r :: ps ++ flat size u) by (rewrite <- !app_assoc; reflexivity).
    set (q := pre ++ o ++ loc ++ [VL l]).
    assert (len q = size - slen u - len ps - 3) as LQ. { subst q. rewrite !len_app. unfold len in *; cbn [length] in *. lia. }
    rewrite upd_app2 by (unfold len in *; lia). replace (_ - length q)%nat with 0%nat by (unfold len in *; lia). cbn [upd].
    subst q. rewrite <- !app_assoc. reflexivity.
  - unfold c_unwind. assert (c_size c = size) as S.
    { unfold c_size. rewrite E, app_length. pose proof (len_flat size (Frame o loc l n r ps u)) as LF. cbn [slen] in LF. unfold len in *. lia. }
    rewrite S. replace (base_of size (Frame o loc l n r ps u) =? size - 1) with false by (cbn [base_of]; lia). rewrite HT. cbn [bind].
    destruct ((r =? RETURN_FROM_FIBER) || (r =? RETURN_FROM_VM)) eqn:RR; [reflexivity|]. rewrite HB. cbn [bind].
    set (q := pre ++ o ++ loc ++ [VL l; VZ n; VB (base_of size u); VZ r] ++ ps).
    assert (c_mem c = q ++ flat size u) as EQ. { rewrite E. subst q. cbn [flat]. rewrite <- !app_assoc. reflexivity. }
    assert (len q = size - slen u) as LQ. { subst q. rewrite !len_app. unfold len in *; cbn [length] in *. lia. }
    specialize (IH size c q i d k EQ LQ W3 ltac:(lia)).
    destruct (refS size u i d) as [u'|e|]; cbn [bind]; [|exact IH|exact Logic.I].
    destruct IH as (b & m & F & R & I & U & SL & BB & WW). exists b, m. split; [exact F|]. split; [exact R|]. split; [exact I|].
    cbn [flat base_of slen wfS]. rewrite U, SL, BB. subst q. split; [rewrite <- !app_assoc; reflexivity|]. auto.
Qed.
Lemma sim_ref : forall c a i d, repr c a -> sim repr (c_ref c i d) (a_ref a i d).
Proof.
  intros c a i d H. unfold a_ref, c_ref. pose proof (repr_size _ _ H) as S. pose proof (repr_top _ _ H) as T. rewrite S, T.
  destruct ((a_top a <=? i) && (i <? a_size a)); [|apply sim_ok; exact H].
  pose proof H as H0. apply repr_iff in H as (pre & E & P & _ & B & W). destruct a as [size s]. cbn [a_size a_stk] in *.
  destruct s as [o g|o loc l n r ps u].
  - rewrite B. cbn [base_of]. rewrite Z.eqb_refl. apply sim_ok. exact H0.
  - pose proof (slen_pos u) as N5. pose proof (len_nonneg _ (sops_of u)) as N6. pose proof (len_nonneg _ ps) as N3.
    replace (c_base c =? size - 1) with false by (rewrite B; cbn [base_of]; lia). rewrite B.
    pose proof (sim_find (Frame o loc l n r ps u) size c pre i d (length (c_mem c)) E P W) as F.
    unfold a_top in *. cbn [a_size a_stk] in *. pose proof (len_nonneg _ pre) as NP.
    specialize (F ltac:(unfold c_size in S; lia)).
    destruct (refS size (Frame o loc l n r ps u) i d) as [s'|e|]; cbn [bind sim]; [|rewrite F; reflexivity|exact Logic.I].
    destruct F as (b & m & F & R & I & U & SL & BB & WW). rewrite F. cbn [bind]. rewrite R. cbn [bind]. unfold c_write. rewrite S.
    replace ((0 <=? b - 1) && (b - 1 <? size)) with true by lia. eexists. split; [reflexivity|].
    apply repr_iff. exists pre. unfold a_top. cbn [c_mem c_top c_base a_size a_stk]. rewrite U, SL, BB. auto.
Qed.
Lemma sim_new : forall c a, repr c a -> sim repr (c_new c) (a_new a).
Proof.
  intros c a H. pose proof (repr_size _ _ H) as S. unfold a_new, c_new. apply sim_ok. apply repr_iff.
  apply repr_iff in H as (pre & E & P & T & B & W). pose proof (slen_pos (a_stk a)) as N5. pose proof (len_nonneg _ (sops_of (a_stk a))) as N6.
  pose proof (len_nonneg _ pre) as N1. unfold a_top in *. cbn [c_mem c_top c_base a_size a_stk slen base_of flat wfS] in *. unfold c_size in *.
  exists (repeat (VZ 0) (Nat.pred (length (c_mem c)))). rewrite len_nil, len_repeat. cbn [app].
  split; [|split; [lia|]; split; [lia|]; split; [lia|exact Logic.I]].
  replace (length (c_mem c)) with (Nat.pred (length (c_mem c)) + 1)%nat by lia. rewrite repeat_app. f_equal. f_equal. lia.
Qed.

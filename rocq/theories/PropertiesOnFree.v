(** C78: callbacks of released blocks. *)
From Coq Require Import ZArith Lia Bool List.
From Verif Require Import Base OnFreeModel OnFreeSpec OnFreeProofs.
Import ListNotations.
Local Open Scope Z_scope.

(** Block 1 points to 2 and 3, both point to 4, which has another reference; 5 stands apart. *)
Definition exChildren (p : Z) : list Z := match p with 1 => [2; 3] | 2 => [4] | 3 => [4; 4] | _ => [] end.
Definition exRc (p : Z) : Z := match p with 4 => 4 | 1 | 2 | 3 | 5 => 1 | _ => 0 end.
Definition exLook (p : Z) : option (list cmd) := if (p =? 1) || (p =? 3) || (p =? 4) then Some [CRead] else None.
Definition exSt : state := MkSt exRc [] 0 [].
Lemma ex_ok (o : outcome state) (P : state -> Prop) : match o with Ok st => P st | _ => False end -> exists st, o = Ok st /\ P st.
Proof. destruct o; intros H; try contradiction. eauto. Qed.
Example C78_example : passive exLook /\
  exists st', decRef exChildren exLook 20 1 exSt = Ok st' /\ map (s_rc st') [1; 2; 3; 4; 5] = [0; 0; 0; 1; 1] /\
              s_trace st' = [ECall 3; ERead 3 3 0; ECall 1; ERead 1 1 0].
Proof.
  split; [|apply ex_ok; vm_compute; auto].
  intros p l H. unfold exLook in H. destruct ((p =? 1) || (p =? 3) || (p =? 4)); try discriminate. injection H as <-. repeat constructor.
Qed.

(** umkaDecRef with callbacks that do not change counts: the counts fall by the reference released and by those in the blocks
    that died, just those die whose count gets zero, and each of them has its callback called once. *)
Theorem C78_release_partial : forall children onFree, passive onFree ->
  forall n p st st', decRef children onFree n p st = Ok st' ->
  exists t, s_trace st' = s_trace st ++ t /\ released children onFree p (s_rc st) (s_rc st') (calls_of t).
Proof. exact release_ok. Qed.
Print Assumptions C78_release_partial.

(** If every count is the number of references, and there is one from outside to be released, the release with such callbacks
    comes to its end without an error, and again every count is the number of references. *)
Theorem C78_counted_partial : forall children onFree, passive onFree ->
  forall blocks roots p st, counted children blocks roots (s_rc st) -> 0 < roots p ->
  exists N, forall n, (N <= n)%nat -> exists blocks' st', decRef children onFree n p st = Ok st' /\ incl blocks' blocks /\
    counted children blocks' (fun q => roots q - one p q) (s_rc st').
Proof. exact release_runs. Qed.
Print Assumptions C78_counted_partial.
Example C78_example_counted : counted exChildren [1; 2; 3; 4; 5] (fun q => one 1 q + one 4 q + one 5 q) (s_rc exSt).
Proof.
  assert (D : forall q, q = 1 \/ q = 2 \/ q = 3 \/ q = 4 \/ q = 5 \/ (q <> 1 /\ q <> 2 /\ q <> 3 /\ q <> 4 /\ q <> 5)) by (intros; lia).
  assert (O : forall q, q <> 1 /\ q <> 2 /\ q <> 3 /\ q <> 4 /\ q <> 5 -> exRc q = 0).
  { intros q (A & B & C & E & F). unfold exRc. destruct q as [|q|q]; auto.
    do 3 (destruct q as [q|q|]; auto; try congruence). }
  repeat split.
  - repeat constructor; cbn; intuition discriminate.
  - intros q. unfold one. repeat destruct (_ =? q); lia.
  - intros q. destruct (D q) as [->|[->|[->|[->|[->|N]]]]]; try reflexivity. cbn [s_rc exSt]. rewrite (O q N).
    unfold held, times, one. cbn [exChildren fold_right].
    repeat match goal with |- context [?a =? q] => destruct (Z.eqb_spec a q); [exfalso; lia|] end. reflexivity.
  - intros q H. destruct (D q) as [->|[->|[->|[->|[->|N]]]]]; cbn; auto 8. cbn [s_rc exSt] in H. rewrite (O q N) in H. lia.
Qed.

(** Whatever callbacks do: one that reads its parameter before it has called umkaDecRef gets the pointer to its own block. *)
Theorem C78_param_partial : forall children onFree n p st st',
  s_trace st = [] -> decRef children onFree n p st = Ok st' ->
  forall q v, In (ERead q v 0) (s_trace st') -> v = q.
Proof.
  intros * T H q v I. assert (G : goodTr st') by (eapply reads_loop; [|exact H]; unfold goodTr; cbn; rewrite T; constructor).
  exact (proj1 (Forall_forall _ _) G _ I).
Qed.
Print Assumptions C78_param_partial.
Definition exUse (p : Z) : option (list cmd) := match p with 1 | 5 => Some [CRead] | 3 => Some [CRead; CDec 5; CRead] | _ => None end.
Example C78_example_use : exists st', decRef exChildren exUse 20 1 exSt = Ok st' /\ In (ERead 3 3 0) (s_trace st').
Proof. apply ex_ok. vm_compute. tauto. Qed.

(** A callback that has released another block with a callback reads the pointer to that block instead of its own. *)
Theorem C78_param_refuted : exists children onFree n p st st', s_trace st = [] /\ decRef children onFree n p st = Ok st' /\
  exists q v k, In (ERead q v k) (s_trace st') /\ v <> q.
Proof.
  exists exChildren, exUse, 20%nat, 1, exSt.
  assert (H : exists st', decRef exChildren exUse 20 1 exSt = Ok st' /\ In (ERead 3 5 1) (s_trace st')) by (apply ex_ok; vm_compute; tauto).
  destruct H as (st' & H & I). exists st'. split; [reflexivity|split; [exact H|]]. exists 3, 5, 1%nat. split; [exact I|lia].
Qed.
Print Assumptions C78_param_refuted.

(** The last reference to a block is released, but if a callback calls umkaDecRef meanwhile the block never dies and its
    callback is not called; so too with umkaIncRef. *)
Theorem C78_dec_refuted : exists children onFree n p st st', s_trace st = [] /\ s_rc st p = 1 /\ decRef children onFree n p st = Ok st' /\
  s_rc st' p = 1 /\ onFree p <> None /\ ~ In p (calls_of (s_trace st')).
Proof.
  exists exChildren, exUse, 20%nat, 1, exSt.
  assert (H : exists st', decRef exChildren exUse 20 1 exSt = Ok st' /\ s_rc st' 1 = 1 /\ ~ In 1 (calls_of (s_trace st')))
    by (apply ex_ok; vm_compute; intuition discriminate).
  destruct H as (st' & H & R & N). exists st'. repeat split; auto. discriminate.
Qed.
Print Assumptions C78_dec_refuted.
Definition exInc (p : Z) : option (list cmd) := match p with 1 => Some [CRead] | 3 => Some [CInc 5] | _ => None end.
Theorem C78_inc_refuted : exists children onFree n p st st', s_trace st = [] /\ s_rc st p = 1 /\ decRef children onFree n p st = Ok st' /\
  s_rc st' p = 1 /\ onFree p <> None /\ ~ In p (calls_of (s_trace st')).
Proof.
  exists exChildren, exInc, 20%nat, 1, exSt.
  assert (H : exists st', decRef exChildren exInc 20 1 exSt = Ok st' /\ s_rc st' 1 = 1 /\ ~ In 1 (calls_of (s_trace st')))
    by (apply ex_ok; vm_compute; intuition discriminate).
  destruct H as (st' & H & R & N). exists st'. repeat split; auto. discriminate.
Qed.
Print Assumptions C78_inc_refuted.

(** A callback has one parameter, inside its buffer. *)
Theorem C78_params : forall i, getParam i = if i =? 0 then Some paramsStart else None.
Proof.
  intros i. unfold getParam, freeNumParams, freeNumResultParams, freeFirst. destruct (Z.eqb_spec i 0) as [->|N]; [reflexivity|].
  destruct (Z.ltb_spec i 0); [reflexivity|]. destruct (Z.leb_spec (2 - 0 - 1) i); [reflexivity|lia].
Qed.
Print Assumptions C78_params.
(** Its upvalue is not: the second pointer is read behind the end of the buffer. *)
Theorem C78_upvalue_refuted : exists i, In i getUpvalue /\ ~ 0 <= i < paramsSize.
Proof. exists 5. split; [cbn; tauto|unfold paramsSize; lia]. Qed.
Print Assumptions C78_upvalue_refuted.

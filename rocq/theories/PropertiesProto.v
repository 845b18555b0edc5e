(** C70: prototypes, bodies and external functions. *)
Require Import Arith List Bool.
Require Import Verif.Base Verif.ProtoModel Verif.ProtoSpec Verif.ProtoMore.
Import ListNotations.
Local Open Scope nat_scope.

(** A module is accepted exactly if every declaration fits the ones before it and
    every function left without a body is found among the external functions. *)
Theorem C70_accepts : forall h res ds,
  compile h res ds <> UB /\
  ((exists r, compile h res ds = Ok r) <-> wellFormed h res ds).
Proof. exact accepts. Qed.
Print Assumptions C70_accepts.

(** Every declared function can be called; what then runs, in which order, and
    whether it ends, is what the bodies say, wherever they stand in the text.
    Missing: functions with more than one prototype (see the next theorem). *)
Theorem C70_calls_partial : forall h res ds ids c, onceProto ds ->
  compile h res ds = Ok (ids, c) ->
  forall d, In d ds -> exists i, findIn ids (did d) = Some i /\
  (forall tr, (exists m, mstar c [ientry i] tr m) <->
              (exists s, sstar ds h (SCall (did d) []) tr s)) /\
  (forall tr, mstar c [ientry i] tr [] <->
              sstar ds h (SCall (did d) []) tr (SRun [])) /\
  (forall tr m, mstar c [ientry i] tr m -> m = [] \/ exists x, mstep c m = Some x).
Proof. exact compile_calls. Qed.
Print Assumptions C70_calls_partial.

(** With a repeated prototype a call compiled between the two runs the function
    that happens to stand after the first prototype. *)
Theorem C70_repeated_prototype_refuted : exists ids c i,
  compile noHost [] twice = Ok (ids, c) /\ findIn ids (fn 2) = Some i /\
  mstar c [ientry i] [EvBody 2; EvBody 1] [] /\
  sstar twice noHost (SCall (fn 2) []) [EvBody 2; EvBody 4] (SRun []) /\
  ~ exists s, sstar twice noHost (SCall (fn 2) []) [EvBody 2; EvBody 1] s.
Proof. exact twice_wrong. Qed.
Print Assumptions C70_repeated_prototype_refuted.

(** [fn even(); fn log(); fn odd() { even(); log() }; fn even() { odd() }] with
    [log] given by the host: accepted, and no function has two prototypes. *)
Example C70_mutual :
  let hst := mkHost (fun x => if Nat.eqb x 7 then Some 70 else None)
                    (fun _ => true) (fun _ => None) in
  let ds := [ mkDecl (fn 0) 3 true None; mkDecl (fn 7) 0 false None;
              mkDecl (fn 1) 3 false (Some [fn 0; fn 7]);
              mkDecl (fn 0) 3 true (Some [fn 1]) ] in
  onceProto ds /\ is_ok (compile hst [] ds) = true /\
  is_ok (compile hst [7] ds) = false /\
  is_ok (compile noHost [] ds) = false.
Proof.
  cbn zeta. split; [|vm_compute; auto].
  intros a d b d' c H E.
  destruct a as [|? [|? [|? [|? [|? ?]]]]]; cbn in H; try discriminate;
  destruct b as [|? [|? [|? [|? ?]]]]; cbn in H; try discriminate;
  injection H; intros; subst; cbn in *; try discriminate.
Qed.

(** A call of a function whose body follows, and of an external one. *)
Example C70_run :
  let hst := mkHost (fun _ => None) (fun _ => true)
                    (fun x => if Nat.eqb x 7 then Some 70 else None) in
  let ds := [ mkDecl (fn 0) 3 true None; mkDecl (fn 7) 0 false None;
              mkDecl (fn 1) 3 false (Some [fn 0; fn 7]);
              mkDecl (fn 0) 3 true (Some []) ] in
  exists ids c i, compile hst [] ds = Ok (ids, c) /\ findIn ids (fn 1) = Some i /\
  mstar c [ientry i] [EvBody 2; EvBody 3; EvExt 70] [].
Proof.
  cbn zeta. do 3 eexists. split; [vm_compute; reflexivity|]. split; [reflexivity|].
  cbn [ientry].
  change [EvBody 2; EvBody 3; EvExt 70]
    with ([EvBody 2] ++ [] ++ [] ++ [EvBody 3] ++ [] ++ [] ++ [] ++ [EvExt 70] ++ [] ++
          [] ++ @nil event).
  repeat (eapply M_step; [reflexivity|]). apply M_refl.
Qed.

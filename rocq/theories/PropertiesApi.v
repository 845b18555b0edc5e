(** C43: errors return to the outermost call. *)
From Coq Require Import ZArith Lia List.
From Verif Require Import Base ApiModel ApiSpec ApiProofs.
Import ListNotations.
Local Open Scope Z_scope.

(** Any number of calls from the host, each with any nesting of umkaCall, up to and including the first that fails. Missing: umkaRun
    within a call, errors outside all calls, and calls after the first error (see C43_refuted). *)
Theorem C43_calls_partial : forall l a, Forall outer l -> outer a -> Forall (fun a => depth a <= INT_MAX) l -> depth a <= INT_MAX -> Forall (fun a => firstErr a = None) l ->
  match firstErr a with
  | None => exists s, host (l ++ [a]) = Ok (s, 0 :: 0 :: repeat 0 (length l) ++ [0], RDone) /\ nesting s = 0 /\ report s = None /\ alive s = true
  | Some c => exists s, host (l ++ [a]) = Ok (s, 0 :: 0 :: repeat 0 (length l) ++ [c], RDone) /\ report s = Some c
  end.
Proof. exact api_thm. Qed.
Print Assumptions C43_calls_partial.

(** Undefined: a call after an error, an error after umkaRun within a call, an error outside all calls (e.g. umkaAddModule with an
    illegal path). An error in umkaRun within a call does not reach the outer call, and exit(2^32) returns 0. *)
Theorem C43_refuted :
  host [ACall true [AErr (-1) true]; ACall true []] = UB /\
  host [ACall true [ARun true []; AErr (-1) true]] = UB /\
  host [AErr 1 true] = UB /\
  (exists s, host [ACall true [ARun true [AErr (-1) true]]] = Ok (s, [0; 0; 0], RDone)) /\
  (exists s, host [ARun true [AExit 4294967296]] = Ok (s, [0; 0; 0], RDone)).
Proof.
  split; [reflexivity|]. split; [reflexivity|]. split; [reflexivity|]. split; eexists; vm_compute; reflexivity.
Qed.
Print Assumptions C43_refuted.

Example C43_example :
  let l := [ARun true [ACall true []; ACall true [ACall true []]]; ACall true []] in
  let a := ACall true [ACall true []; ACall true [ACall true [AErr 7 true; AErr 8 true]]; AErr 9 true] in
  Forall outer l /\ outer a /\ Forall (fun a => depth a <= INT_MAX) l /\ depth a <= INT_MAX /\ Forall (fun a => firstErr a = None) l /\ firstErr a = Some 7.
Proof.
  cbv zeta. split; [repeat constructor|]. split; [cbn; tauto|]. split; [repeat constructor; vm_compute; discriminate|]. split; [vm_compute; discriminate|]. split; [repeat constructor|reflexivity].
Qed.

(** Property C38 (storage of the compiler). *)
From Coq Require Import ZArith Lia Bool List.
From Verif Require Import Base StorModel StorSpec StorProofs.
Import ListNotations.
Local Open Scope Z_scope.

(** After every sequence of allocations, removals, reallocations to a size not smaller, writes and complete releases, each naming
    only blocks held at that time: the results are as specified; following the list visits exactly the blocks held, with their
    bytes; exactly these are not yet returned to the C library; and what was returned is exactly what was removed, reallocated
    or released as a whole, in this order. No step has undefined behaviour (in particular nothing is freed twice).
    The fuel of the release loop is the number of operations. *)
Theorem C38_storage_partial : forall os, legalRun [] os ->
  match arun [] os with
  | Ok (l, xs, fs) => exists s, srun (length os) (storageInit empty) os = Ok (s, xs) /\
      walk (length l) (heap s) (first s) = Some l /\
      (forall p, live (heap s) (p - CHUNK_HEADER) <> None <-> get p l <> None) /\
      map (fun a => a + CHUNK_HEADER) (rev (freed (heap s))) = fs
  | Err e => srun (length os) (storageInit empty) os = Err e
  | UB => False
  end.
Proof. exact storage_thm. Qed.
Print Assumptions C38_storage_partial.

Definition exops : list sop :=
  [SAdd 1000 2; SAdd 2000 3; SAdd 3000 1; SWrite 2024 1 7; SRemove 2024; SAdd 2000 1; SWrite 1024 0 9; SRealloc 1024 4000 4; SFreeAll].
Example C38_ex : legalRun [] exops /\
  arun [] (firstn 8 exops) = Ok ([(4024, [9; 0; 0; 0]); (2024, [0]); (3024, [0])], [1024; 2024; 3024; 0; 0; 2024; 0; 4024], [2024; 1024]) /\
  arun [] exops = Ok ([], [1024; 2024; 3024; 0; 0; 2024; 0; 4024; 0], [2024; 1024; 4024; 2024; 3024]).
Proof.
  split; [|split; reflexivity]. unfold exops. cbn.
  repeat match goal with
  | |- _ /\ _ => split
  | |- True => exact Logic.I
  | |- fresh _ _ => split; [discriminate|reflexivity]
  | |- exists _, _ => eexists; split; [vm_compute; reflexivity|cbn [length]; lia]
  | |- _ <> _ => discriminate
  | |- _ = None => reflexivity
  end.
Qed.

(** Without the condition on sizes the claim is false: reallocation to a smaller size copies past the end of the new block. *)
Theorem C38_refuted :
  fmap snd (srun 3 (storageInit empty) [SAdd 1000 8; SRealloc 1024 2000 4]) = UB /\
  fmap snd (srun 3 (storageInit empty) [SAdd 1000 8; SRealloc 1024 2000 8]) = Ok [1024; 2024].
Proof. split; reflexivity. Qed.
Print Assumptions C38_refuted.

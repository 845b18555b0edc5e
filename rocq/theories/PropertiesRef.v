(** C42: reference counts are numbers of references. *)
From Coq Require Import ZArith Lia Bool List.
From Verif Require Import Base RefModel RefSpec RefProofs RefDec RefOps RefAssign RefItems RefThm.
Import ListNotations.
Local Open Scope Z_scope.

(** After any program, the count of every chunk is the number of references to it held by variables and by chunks that are not released. *)
Theorem C42_counts : forall env os m vs b, Run env start os (m, vs) -> (b < length (heap m))%nat ->
  c_ref (chunkAt m b) = cnt b (varRefs m vs ++ heapRefs env m).
Proof. intros env os m vs b H L. exact (proj2 (run_good env _ _ _ H (start_good env)) b L). Qed.
Print Assumptions C42_counts.

(** Every operation of a well-typed program can be executed: neither a dangling pointer nor a wrong count is found. The only error is that
    the last reference to a fiber that has not returned is dropped. *)
Theorem C42_progress : forall env os s o, Run env start os s -> allowed env s o ->
  exists F, forall n, (F <= n)%nat -> (exists s', exec env n s o = Ok s') \/ (exec env n s o = Err EOther /\ busy (fst s)).
Proof. intros env os s o H A. destruct (exec_good env s o (run_good env _ _ _ H (start_good env)) A) as (F & Q). exists F. intros n L. destruct (Q n L) as [(s' & E & _)|E]; [left; exists s'; exact E|right; exact E]. Qed.
Print Assumptions C42_progress.

(** Nothing that can be reached from variables is released. *)
Theorem C42_reachable : forall env os m vs b, Run env start os (m, vs) -> reachable env m vs b -> 0 < c_ref (chunkAt m b).
Proof. intros env os m vs b H R. pose proof (g_reach env m vs (run_good env _ _ _ H (start_good env)) b R) as L. unfold live in L. apply Z.ltb_lt. exact L. Qed.
Print Assumptions C42_reachable.

(** Without cycles, everything that cannot be reached from variables has been released. *)
Theorem C42_released : forall env os m vs b, Run env start os (m, vs) -> acyclic env m -> (b < length (heap m))%nat -> ~ reachable env m vs b -> c_ref (chunkAt m b) = 0.
Proof.
  intros env os m vs b H A L N. pose proof (run_good env _ _ _ H (start_good env)) as G. pose proof (g_cnt env m vs G b L) as C.
  destruct (live m b) eqn:E; [destruct (N (live_reachable env m vs G A b E))|]. unfold live in E. apply Z.ltb_ge in E. pose proof (cnt_nonneg b (varRefs m vs)). pose proof (cnt_nonneg b (heapRefs env m)). lia.
Qed.
Print Assumptions C42_released.

(** Two nodes of a list, each with a string: type Node = struct {s: str; next: ^Node}. All variables go out of scope at the end. *)
Definition envL (i : nat) : ty := match i with O => TStruct [(0, TStr); (8, TPtr 0)] 16 | _ => TPlain 0 end.
Definition opsL : list op :=
  [ONew 0 0; OMakeStr 8; OAssign (AHeap 0 0) (AVar 8) TStr; ONew 16 0; OAssign (AHeap 2 8) (AVar 0) (TPtr 0); OAssign (AHeap 2 0) (AHeap 0 0) TStr; OAssign (AVar 0) (AVar 16) (TPtr 0); OEnd; OEnd; OEnd].
Definition stL (k : nat) : state := stateAfter envL 20 start (firstn k opsL).
Definition counts (s : state) : list Z := map c_ref (heap (fst s)).
Lemma fieldStr : Sub (envL 0) 0 TStr. Proof. apply (SubField _ _ 0 TStr 0 TStr); [left; reflexivity|constructor]. Qed.
Lemma fieldNext : Sub (envL 0) 8 (TPtr 0). Proof. apply (SubField _ _ 8 (TPtr 0) 0 (TPtr 0)); [right; left; reflexivity|constructor]. Qed.
Ltac var_place x T := exists x, T, 0; split; [vm_compute; tauto|]; split; [constructor|reflexivity].
Ltac heap_place T o S := split; [vm_compute; lia|]; split; [|exists 0, T, o; split; [vm_compute; reflexivity|split; [exact S|reflexivity]]].
Ltac each k E := first [solve [destruct k; discriminate E]|destruct k as [|k]; [injection E as <-|each k E]].
Ltac new_var := split; [cbn; lia|match goal with |- Forall ?P ?l => let v := eval vm_compute in l in change (Forall P v) end; repeat constructor; unfold apart; cbn; lia].
Example C42_run_list : Run envL start opsL (stL 10).
Proof.
  apply run_by; [reflexivity|]. intros k o E. each k E.
  - split; [new_var|cbn; lia].
  - new_var.
  - split; [heap_place (envL 0) 0 fieldStr; apply ReachVar; vm_compute; tauto|var_place 8 TStr].
  - split; [new_var|cbn; lia].
  - split; [heap_place (envL 0) 8 fieldNext; apply ReachVar; vm_compute; tauto|var_place 0 (TPtr 0)].
  - split; [heap_place (envL 0) 0 fieldStr; apply ReachVar; vm_compute; tauto|heap_place (envL 0) 0 fieldStr; reflexivity].
  - split; [var_place 0 (TPtr 0)|var_place 16 (TPtr 0)].
  - vm_compute. discriminate.
  - vm_compute. discriminate.
  - vm_compute. discriminate.
Qed.
Example C42_counts_list : counts (stL 6) = [2; 3; 1] /\ counts (stL 7) = [1; 3; 2] /\ counts (stL 8) = [1; 3; 1] /\ counts (stL 9) = [1; 2; 1] /\ counts (stL 10) = [0; 0; 0].
Proof. vm_compute. auto. Qed.
Example C42_acyclic_list : acyclic envL (fst (stL 9)).
Proof.
  exists (fun b => match b with O => 1 | 1 => 0 | _ => 2 end)%nat. intros b c L I. destruct b as [|[|[|b]]].
  - vm_compute in I. destruct I as [<-|[]]. lia.
  - destruct I.
  - vm_compute in I. destruct I as [<-|[<-|[]]]; lia.
  - apply live_lt in L. vm_compute in L. lia.
Qed.

(** An array of a structure with an interface, a dynamic array of fibers and a map: type S = struct {i: interface; d: []fiber; m: map}. *)
Definition envM (i : nat) : ty :=
  match i with
  | 0%nat => TArray (TStruct [(0, TIface 24); (24, TDyn 1); (48, TMap 2)] 64) 2
  | 1%nat => TFiber
  | 2%nat => TStruct [(0, TPlain 8); (8, TPtr 3); (16, TPtr 3); (24, TPtr 2); (32, TPtr 2)] 40
  | 3%nat => TPlain 8
  | _ => TPlain 0
  end.
Definition opsM : list op :=
  [ONew 0 0; OMakeFiber 8; OMake 16 1 3; OAssign (AHeap 3 32) (AVar 8) TFiber; OAssign (AHeap 0 88) (AVar 16) (TDyn 1); OMakeMap 40 2; OMove (AHeap 0 112); OIface 40 (AVar 0) 0 24; OMove (AHeap 0 0); OFinish 1; OEnd; OEnd;
   ODecl 8 (TIface 24); OAssign (AHeap 0 0) (AVar 8) (TIface 24); OEnd; OEnd].
Definition stM (k : nat) : state := stateAfter envM 40 start (firstn k opsM).
Lemma elemM : forall i o t, (i < 2)%nat -> Sub (TStruct [(0, TIface 24); (24, TDyn 1); (48, TMap 2)] 64) o t -> Sub (envM 0) (Z.of_nat i * 64 + o) t. Proof. intros i o t L H. exact (SubItem _ 2 i o t L H). Qed.
Lemma fieldD : Sub (envM 0) 88 (TDyn 1). Proof. apply (elemM 1 24); [lia|]. apply (SubField _ _ 24 (TDyn 1) 0 (TDyn 1)); [right; left; reflexivity|constructor]. Qed.
Lemma fieldM : Sub (envM 0) 112 (TMap 2). Proof. apply (elemM 1 48); [lia|]. apply (SubField _ _ 48 (TMap 2) 0 (TMap 2)); [right; right; left; reflexivity|constructor]. Qed.
Lemma fieldI : Sub (envM 0) 0 (TIface 24). Proof. apply (elemM 0 0); [lia|]. apply (SubField _ _ 0 (TIface 24) 0 (TIface 24)); [left; reflexivity|constructor]. Qed.
Example C42_run_map : Run envM start opsM (stM 16).
Proof.
  apply run_by; [reflexivity|]. intros k o E. each k E.
  - split; [new_var|cbn; lia].
  - new_var.
  - split; [new_var|split; [exact I|vm_compute; split; discriminate]].
  - split; [|var_place 8 TFiber].
    split; [vm_compute; lia|]. split; [apply ReachVar; vm_compute; tauto|]. exists 16, (TArray TFiber 3), 16. split; [vm_compute; reflexivity|]. split; [|reflexivity]. exact (SubItem TFiber 3 2 0 TFiber ltac:(lia) (SubHere _)).
  - split; [heap_place (envM 0) 88 fieldD; apply ReachVar; vm_compute; tauto|var_place 16 (TDyn 1)].
  - split; [new_var|cbn; lia].
  - eapply allow_move; [vm_compute; reflexivity|]. heap_place (envM 0) 112 fieldM; apply ReachVar; vm_compute; tauto.
  - split; [new_var|var_place 0 (TPtr 0)].
  - eapply allow_move; [vm_compute; reflexivity|]. heap_place (envM 0) 0 fieldI; apply ReachVar; vm_compute; tauto.
  - split; vm_compute; reflexivity.
  - vm_compute. discriminate.
  - vm_compute. discriminate.
  - new_var.
  - split; [heap_place (envM 0) 0 fieldI; apply ReachVar; vm_compute; tauto|var_place 8 (TIface 24)].
  - vm_compute. discriminate.
  - vm_compute. discriminate.
Qed.
(** Chunk 0 (the array) refers to itself until the interface is overwritten; then all of it is released at the end of the last variable:
    the fiber (1) and its stack (2), the items (3), the map's root (4). *)
Example C42_counts_map : counts (stM 9) = [2; 2; 1; 2; 1] /\ counts (stM 13) = [2; 1; 1; 1; 1] /\ counts (stM 15) = [1; 1; 1; 1; 1] /\ counts (stM 16) = [0; 0; 0; 0; 0].
Proof. vm_compute. auto. Qed.
(** If the interface is not overwritten, the cycle stays; without the fiber's return, its last reference cannot be dropped. *)
Example C42_cycle : match execs envM 40 start (firstn 12 opsM ++ [OEnd]) with Ok s => snd s = [] /\ counts s = [1; 1; 1; 1; 1] | _ => False end.
Proof. vm_compute. auto. Qed.
Example C42_busy : exec envM 40 (stM 2) OEnd = Err EOther /\ allowed envM (stM 2) OEnd.
Proof. split; [vm_compute; reflexivity|vm_compute; discriminate]. Qed.

(** Dynamic arrays of strings: var a: []str; s := new string; a = append(a, s); a = insert(a, 0, s); b := append(a, a); c := slice(b, 1, -1); d := delete(a, 0);
    e := copy(a); f: [2]str = a; g: []str = f. *)
Definition envA (i : nat) : ty := match i with O => TStr | _ => TPlain 0 end.
Definition opsA : list op :=
  [OMake 0 0 0; OMakeStr 24; OAppend 32 (AVar 0) (AVar 24) 0 true; OMove (AVar 0); OInsert 32 (AVar 0) 0 (AHeap 0 16) 0; OMove (AVar 0); OAppend 32 (AVar 0) (AVar 0) 0 false; OSlice 56 (AVar 32) 0 1 (-1);
   ODelete 80 (AVar 0) 0 0; OCopyArr 104 (AVar 0) 0; OToArr 128 (AVar 0) 0 2; OFromArr 144 (AVar 128) 0 2; OEnd; OEnd; OEnd; OEnd; OEnd; OEnd; OEnd; OEnd].
Definition stA (k : nat) : state := stateAfter envA 40 start (firstn k opsA).
Ltac dyn_var x := exists x, (TDyn 0), 0; split; [vm_compute; tauto|]; split; [constructor|reflexivity].
Example C42_run_arrays : Run envA start opsA (stA 20).
Proof.
  apply run_by; [reflexivity|]. intros k o E. each k E.
  - split; [new_var|split; [exact I|vm_compute; split; discriminate]].
  - new_var.
  - split; [new_var|]. split; [exact I|]. split; [dyn_var 0|]. split; [var_place 24 TStr|]. vm_compute; discriminate.
  - eapply allow_move; [vm_compute; reflexivity|]. dyn_var 0.
  - split; [new_var|]. split; [exact I|]. split; [dyn_var 0|]. split; [split; [vm_compute; lia|]; split; [vm_compute; reflexivity|]; exists 16, (TArray TStr 1), 0; split; [vm_compute; reflexivity|]; split; [exact (SubItem TStr 1 0 0 TStr ltac:(lia) (SubHere _))|reflexivity]|]. split; [vm_compute; split; discriminate|vm_compute; discriminate].
  - eapply allow_move; [vm_compute; reflexivity|]. dyn_var 0.
  - split; [new_var|]. split; [exact I|]. split; [dyn_var 0|]. split; [dyn_var 0|]. vm_compute; discriminate.
  - split; [new_var|]. split; [exact I|]. split; [dyn_var 32|]. exists 3. split; [lia|]. split; [vm_compute; discriminate|]. split; [vm_compute; discriminate|]. right. left. vm_compute. auto.
  - split; [new_var|]. split; [dyn_var 0|]. vm_compute; split; [discriminate|reflexivity].
  - split; [new_var|]. split; [exact I|]. split; [dyn_var 0|]. vm_compute; discriminate.
  - split; [new_var|]. split; [dyn_var 0|]. vm_compute; discriminate.
  - split; [new_var|]. split; [var_place 128 (TArray TStr 2)|]. vm_compute; discriminate.
  - vm_compute. discriminate.
  - vm_compute. discriminate.
  - vm_compute. discriminate.
  - vm_compute. discriminate.
  - vm_compute. discriminate.
  - vm_compute. discriminate.
  - vm_compute. discriminate.
  - vm_compute. discriminate.
Qed.
(** Chunk 0 holds the items of a (and d), chunk 1 is the string. *)
Example C42_counts_arrays : map (fun k => counts (stA k)) [4; 6; 7; 8; 9; 10; 12; 19; 20]%nat =
  [[1; 2]; [1; 3]; [1; 7; 1]; [1; 9; 1; 1]; [2; 8; 1; 1]; [2; 9; 1; 1; 1]; [2; 11; 1; 1; 1; 1]; [1; 1; 0; 0; 0; 0]; [0; 0; 0; 0; 0; 0]].
Proof. vm_compute. reflexivity. Qed.

(** The claim is false when the last reference to a chunk is a pointer of type ^void (a pointer is converted to it implicitly, doc/lang.md:447):
    what the chunk holds is not known then, unless it is structured.
      var v: ^void; { p := new(str); p^ = sprintf("..."); v = p } *)
Definition envV (i : nat) : ty := match i with O => TStr | _ => TPlain 0 end.
Theorem C42_refuted : exists os s, execs envV 20 start os = Ok s /\ snd s = [] /\ acyclic envV (fst s) /\ c_ref (chunkAt (fst s) 0) = 0 /\ c_ref (chunkAt (fst s) 1) = 1 /\ ~ In 1%nat (varRefs (fst s) (snd s) ++ heapRefs envV (fst s)).
Proof.
  exists [ODecl 0 (TPtr 1); ONew 8 0; OMakeStr 16; OAssign (AHeap 0 0) (AVar 16) TStr; OEnd; OAssign (AVar 0) (AVar 8) (TPtr 1); OEnd; OEnd].
  eexists. split; [reflexivity|]. split; [reflexivity|]. split.
  - exists (fun b => match b with O => 1 | _ => 0 end)%nat. intros b c L I. destruct b as [|[|b]]; [vm_compute in L; discriminate|destruct I|apply live_lt in L; vm_compute in L; lia].
  - split; [reflexivity|]. split; [reflexivity|]. vm_compute. tauto.
Qed.
Print Assumptions C42_refuted.

(** The claim is false for pointers to items after delete(): the vacated place keeps the reference that is not counted any more.
      a = append(a, s); p := &a[0]; a = delete(a, 0); p^ = ""
    Every operation but the last is one of a well-typed program. The last writes through the variable p (at 32), which is not null and points
    into a chunk that is not released; the string is released though the variable s still refers to it. *)
Definition opsD : list op := [OMake 0 0 0; OMakeStr 24; OAppend 32 (AVar 0) (AVar 24) 0 true; OMove (AVar 0); OAddr 32 (AHeap 0 16) 0; ODelete 40 (AVar 0) 0 0; OMove (AVar 0); ODecl 64 TStr].
Definition stD : state := stateAfter envA 40 start opsD.
Lemma run_delete : Run envA start opsD stD.
Proof.
  apply (run_by envA 40); [reflexivity|]. intros k o E. each k E.
  - split; [new_var|split; [exact I|vm_compute; split; discriminate]].
  - new_var.
  - split; [new_var|]. split; [exact I|]. split; [dyn_var 0|]. split; [var_place 24 TStr|]. vm_compute; discriminate.
  - eapply allow_move; [vm_compute; reflexivity|]. dyn_var 0.
  - split; [new_var|]. split; [vm_compute; lia|]. split; [vm_compute; reflexivity|]. exists 16, (TArray TStr 1), 0. split; [vm_compute; reflexivity|]. split; [exact (SubItem TStr 1 0 0 TStr ltac:(lia) (SubHere _))|reflexivity].
  - split; [new_var|]. split; [dyn_var 0|]. vm_compute; split; [discriminate|reflexivity].
  - eapply allow_move; [vm_compute; reflexivity|]. dyn_var 0.
  - new_var.
Qed.
Theorem C42_delete_refuted : exists os m vs m' vs', Run envA start os (m, vs) /\ In (32, TPtr 0) vs /\ In (24, TStr) vs /\ In (64, TStr) vs /\ read m (AVar 32) = WPtr (AHeap 0 16) /\ live m 0 = true /\
  exec envA 40 (m, vs) (OAssign (AHeap 0 16) (AVar 64) TStr) = Ok (m', vs') /\ In 1%nat (varRefs m' vs') /\ c_ref (chunkAt m' 1) = 0.
Proof.
  exists opsD, (fst stD), (snd stD). eexists. eexists. split; [rewrite <- surjective_pairing; exact run_delete|]. split; [vm_compute; tauto|]. split; [vm_compute; tauto|]. split; [vm_compute; tauto|]. split; [vm_compute; reflexivity|]. split; [vm_compute; reflexivity|].
  split; [vm_compute; reflexivity|]. split; [vm_compute; tauto|vm_compute; reflexivity].
Qed.
Print Assumptions C42_delete_refuted.

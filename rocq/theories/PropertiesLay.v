(** Properties C22-C24: layout of structures, parameters and local variables. *)
From Coq Require Import ZArith Bool List.
From Verif Require Import Base NumModel CmpModel LayModel LaySpec LayProofs.
Import ListNotations.
Local Open Scope Z_scope.

(** C22, partial: proved for every accepted list of fields whose computed size did not wrap around. The fields are those
    declared, in order; their offsets are aligned, do not overlap, lie inside the structure and leave no more room than the
    alignment needs; the size is a multiple of the alignment. Missing: structures of almost 2 GB (see C22_overflow_refuted). *)
Theorem C22_fields_partial :
  forall l st, build (EFields l) = Ok st -> 0 <= t_size st ->
  Forall2 (fun e f => build e = Ok (snd f)) l (t_fields st) /\
  (forall i off ft, nth_error (t_fields st) i = Some (off, ft) ->
     0 <= off /\ 0 <= t_size ft /\ 0 < t_align ft /\ off mod t_align ft = 0 /\ t_size ft mod t_align ft = 0 /\
     t_size st mod t_align ft = 0 /\ off + t_size ft <= t_size st) /\
  (forall i j o1 t1 o2 t2, (i < j)%nat -> nth_error (t_fields st) i = Some (o1, t1) -> nth_error (t_fields st) j = Some (o2, t2) ->
     o1 + t_size t1 <= o2) /\
  (forall i o t, nth_error (t_fields st) i = Some (o, t) ->
     match i with
     | O => o = 0
     | S k => forall o' t', nth_error (t_fields st) k = Some (o', t') -> o < o' + t_size t' + t_align t
     end) /\
  0 < t_align st /\ t_size st mod t_align st = 0.
Proof. exact fields_thm. Qed.
Print Assumptions C22_fields_partial.

Example C22_case :
  fmap (fun t => (t_size t, t_align t, map fst (t_fields t)))
    (build (EFields [EBase KInt8; EBase KInt; EArray 3 (EBase KInt16); EFields [EBase KBool; EBase KReal32]; EBase KDynArray])) =
  Ok (56, 8, [0; 8; 16; 24; 32]).
Proof. reflexivity. Qed.

(** Types are laid out as a C compiler would do it on this platform, so structures can be shared with C code; every type whose
    parts stay below 2^31 - 7 bytes is accepted. *)
Theorem C22_same_as_c :
  forall e s a, c_layout e = Some (s, a) -> exists t, build e = Ok t /\ t_size t = s /\ t_align t = a.
Proof. intros e s a H. destruct (c_layout_thm e s a H) as (t & Ht & (A1 & A2 & _) & _). exists t. repeat split; assumption. Qed.
Print Assumptions C22_same_as_c.

Example C22_c_case :
  c_layout (EFields [EBase KUInt8; EFields [EBase KInt16; EBase KUInt8]; EArray 5 (EBase KReal); EBase KMap; EBase KChar]) = Some (72, 8).
Proof. reflexivity. Qed.

(** C22, refuted near 2 GB: the check for the size does not take the padding into account, so that the size overflows an int. *)
Theorem C22_overflow_refuted :
  build (EFields [EArray 2147483645 (EBase KUInt8); EBase KInt16]) = UB /\
  exists t, build (EFields [EBase KInt; EArray 2147483639 (EBase KUInt8)]) = Ok t /\ t_size t = - two31.
Proof. split; [vm_compute; reflexivity|]. eexists. split; vm_compute; reflexivity. Qed.
Print Assumptions C22_overflow_refuted.

(** C23: wherever the stack top is before the call, the caller's pushes, the frame layout used by the C API and the offsets
    used by the callee agree on each parameter's place; parameters do not overlap each other nor anything outside the area
    between the new and the old top; the indirect call finds the function and the return restores the top. *)
Theorem C23_parameters :
  forall g lv top, fits (g_sizes g) -> exists y addrs t,
  typeMakeStackFrameLayout g lv = Ok y /\ pushParams top (g_sizes g) = Ok (addrs, t) /\ length addrs = length (g_sizes g) /\
  t = top - total_slots (g_sizes g) /\
  (forall i a s, nth_error addrs i = Some a -> nth_error (g_sizes g) i = Some s ->
     nth_error (y_first y) i = Some (a - stackGetFrameParams (frameBase t)) /\
     typeParamOffset g (Z.of_nat i) = Ok (8 * (a - frameBase t)) /\
     t <= a /\ 8 * a + s <= 8 * top) /\
  (forall i j a b s, (i < j)%nat -> nth_error addrs i = Some a -> nth_error addrs j = Some b -> nth_error (g_sizes g) j = Some s ->
     8 * b + s <= 8 * a) /\
  indirectEntrySlot g t = Ok top /\ topAfterReturn y (t - 1) = top.
Proof. exact params_thm. Qed.
Print Assumptions C23_parameters.

(** C23: the C API returns the slots where the caller put the parameters, the upvalue and the result pointer. Parameter 0 is the
    upvalue; the last one is the result pointer if the result is structured. *)
Theorem C23_api :
  forall g lv top y addrs t, fits (g_sizes g) -> typeMakeStackFrameLayout g lv = Ok y -> pushParams top (g_sizes g) = Ok (addrs, t) ->
  (1 + (if g_structured g then 1 else 0) <= length (g_sizes g))%nat ->
  let params := stackGetFrameParams (frameBase t) in
  let nargs := Z.of_nat (length (g_sizes g)) - 1 - (if g_structured g then 1 else 0) in
  (forall index, umkaGetParam y params index =
     Ok (if (0 <=? index) && (index <? nargs) then nth_error addrs (S (Z.to_nat index)) else None)) /\
  (forall index, 0 <= index < nargs -> nth_error addrs (S (Z.to_nat index)) <> None) /\
  (exists a, nth_error addrs 0 = Some a /\ umkaGetUpvalue y params = Ok a) /\
  umkaGetResult y params = Ok (if g_structured g then nth_error addrs (length (g_sizes g) - 1) else None) /\
  (g_structured g = true -> nth_error addrs (length (g_sizes g) - 1) <> None).
Proof. exact api_thm. Qed.
Print Assumptions C23_api.

Example C23_case :
  let g := MkSig [16; 8; 1; 24; 0; 20; 8] true in
  fits (g_sizes g) /\
  pushParams 1000 (g_sizes g) = Ok ([998; 997; 996; 993; 993; 990; 989], 989) /\
  (let* y := typeMakeStackFrameLayout g 0 in mapO (umkaGetParam y 989) [-1; 0; 2; 4; 5]) =
    Ok [None; Some 997; Some 993; Some 990; None] /\
  (let* y := typeMakeStackFrameLayout g 0 in umkaGetResult y 989) = Ok (Some 989).
Proof. split; [split; [repeat constructor; discriminate|discriminate]|vm_compute; auto]. Qed.

(** C24, partial: proved for functions whose locals need at most 2^31 - 16 bytes. Variables of one function (all blocks of its
    body together) are aligned, pairwise disjoint, below the two bookkeeping slots and inside the frame. *)
Theorem C24_locals_partial :
  forall b s, bhistory b s ->
  (forall v, In v (tr_vars s) -> v_off v mod v_align v = 0 /\ v_off v + v_size v <= -16) /\
  (forall i j v w, (i < j)%nat -> nth_error (tr_vars s) i = Some v -> nth_error (tr_vars s) j = Some w -> v_fn w = v_fn v ->
     v_off v + v_size v <= v_off w) /\
  (forall i k n, nth_error (live b) i = Some k -> nth_error (tr_live s) i = Some (Some n) ->
     exists m, localVarSlots (k_local k) = Ok m /\ forall v, In v (tr_vars s) -> v_fn v = n -> -16 - 8 * m <= v_off v).
Proof. exact locals_thm. Qed.
Print Assumptions C24_locals_partial.

Fixpoint brun (b : blocks) (s : trace) (l : list bop) : outcome (blocks * trace) :=
  match l with
  | [] => Ok (b, s)
  | o :: r => let* (b', x) := bstep b o in brun b' (trace_step s o x) r
  end.
(** A function with a nested block, a closure inside it, and a variable after both. *)
Example C24_case :
  fmap (fun x => (map k_local (live (fst x)), map (fun v => (v_fn v, v_off v)) (tr_vars (snd x))))
    (brun blocksInit trace_init
       [BEnter true; BAlloc (typeAdd KInt8); BEnter false; BAlloc (typeAdd KMap); BEnter true; BAlloc (typeAdd KInt);
        BLeave; BAlloc (typeAdd KInt16); BLeave; BAlloc (typeAdd KReal)]) =
  Ok ([40; 0], [(0%nat, -56); (0%nat, -42); (1%nat, -24); (0%nat, -40); (0%nat, -17)]).
Proof. vm_compute. reflexivity. Qed.
Example C24_history :
  exists b s, bhistory b s /\ map (fun v => (v_fn v, v_off v)) (tr_vars s) = [(0%nat, -32); (1%nat, -24); (0%nat, -17)].
Proof.
  eexists. eexists. split.
  - assert (forall b s o b' x, bhistory b s -> blegal s o -> bstep b o = Ok (b', x) -> small (trace_step s o x) -> bhistory b' (trace_step s o x)) as N by exact bh_step.
    eapply (N _ _ (BAlloc (typeAdd KInt))); [eapply (N _ _ BLeave); [eapply (N _ _ (BAlloc (typeAdd KInt))); [eapply (N _ _ (BEnter true));
      [eapply (N _ _ (BAlloc (typeAdd KInt8))); [eapply (N _ _ (BEnter true)); [exact bh_init|..]|..]|..]|..]|..]|..]; cbn [blegal];
      first [exact I | exists (EBase KInt); reflexivity | exists (EBase KInt8); reflexivity | reflexivity | intros [|[|n]]; vm_compute; discriminate].
  - vm_compute. reflexivity.
Qed.

(** C24, refuted near 2 GB: the second variable gets a positive offset, outside the frame. *)
Theorem C24_overflow_refuted :
  exists b off, (let* (b, _) := identAllocStack (MkBlocks [MkBlk true 0; MkBlk false 0] []) (typeAdd KInt8) in
                 let* t := build (EArray 2147483640 (EBase KUInt8)) in identAllocStack b t) = Ok (b, off) /\ off = 2147483639.
Proof. eexists. eexists. split; vm_compute; reflexivity. Qed.
Print Assumptions C24_overflow_refuted.

(** C62: a compiled program does what its source says. *)
From Coq Require Import ZArith Lia Bool List.
From Verif Require Import Base TempModel TempSpec SourceSpec SourceMain SourceDet SourceFwd SourceEnds.
Import ListNotations.
Local Open Scope Z_scope.

(** [s: str; k: int; fn main() { x := "12"; for i := 0; i < 1; i = 1 { s = f(x) + x; if y := len(s); 5 < y { k = y; break } } }; fn f(a: str): str { return a + a }] *)
Definition small : list fn := [
  Fn [] None (SSeq (SDecl 1 (ENew [1; 2])) (SFor (SDecl 2 (ENum 0)) (ELess (ELocal 2) (ENum 1)) (SSet 2 (ENum 1))
    (SSeq (SSetGlobal 0 (ECat (ECall 1 (ACons (ELocal 1) ANil)) (ELocal 1))) (SIf (SDecl 3 (ELen (EGlobal 0))) (ELess (ENum 5) (ELocal 3)) (SSeq (SSetGlobal 1 (ELocal 3)) SBreak) SSkip))));
  Fn [true] (Some true) (SReturn (Some (ECat (ELocal 0) (ELocal 0))))].
Definition smallG : list sval := [SS [1; 2; 1; 2; 1; 2]; SI 6].

(** A source program has at most one meaning. *)
Theorem C62_source_deterministic : forall prog gty G G', ends prog gty G -> ends prog gty G' -> G' = G.
Proof.
  intros prog gty G G' (F & e & o & E & D & _) (F' & e' & o' & E' & D' & _). rewrite E in E'. injection E' as <-. exact (proj1 (proj2 (proj1 (proj2 (proj2 (det prog))) _ _ _ _ _ _ D _ _ _ D'))).
Qed.
Print Assumptions C62_source_deterministic.
Example C62_source_deterministic_case : ends small [true; false] smallG.
Proof.
  eexists _, _, ONext. split; [reflexivity|]. split; [|auto]. cbn. eapply ex_seq; [apply ex_decl, ev_new|]. eapply ex_for; [apply ex_decl, ev_num|].
  eapply lp_break with (z := 1); [apply (ev_less _ _ _ _ _ 0 1 [SS []; SI 0]); [apply ev_local; reflexivity|apply ev_num]|discriminate|].
  eapply ex_seq.
  - apply (ex_setGlobal _ _ _ 0 _ (SS [1; 2; 1; 2; 1; 2]) [SS []; SI 0]); [|cbn; lia]. eapply (ev_cat _ _ _ _ _ [1; 2; 1; 2] [1; 2]); [|apply ev_local; reflexivity].
    eapply ev_call; [reflexivity|eapply evs_cons; [apply ev_local; reflexivity|apply evs_nil]|]. apply ex_returnV. eapply (ev_cat _ _ _ _ _ [1; 2] [1; 2]); apply ev_local; reflexivity.
  - eapply ex_if with (z := 1); [apply ex_decl; apply (ev_len _ _ _ _ [1; 2; 1; 2; 1; 2]); apply ev_global; reflexivity|apply (ev_less _ _ _ _ _ 5 6 [SS [1; 2; 1; 2; 1; 2]; SI 0]); [apply ev_num|apply ev_local; reflexivity]|].
    eapply ex_seq; [|apply ex_break]. apply (ex_setGlobal _ _ _ 1 (ELocal 3) (SI 6) [SS [1; 2; 1; 2; 1; 2]; SI 0]); [apply ev_local; reflexivity|cbn; lia].
Qed.

(** Whenever a call comes to its end, from whatever state, its result and the global variables are what the source says, and no value outside has changed. *)
Theorem C62_call_says : forall gty prog funs n f F s al xs G rest s' g, compile gty prog = Ok funs -> nth_error prog f = Some F -> stk s = rev al ++ rest -> length al = length (fparams F) ->
  Forall2 (denotes s) al xs -> Forall2 (denotes s) (globs s) G -> exec funs n [ICall f] s = Ok (s', g) ->
  g = Next /\ stk s' = rest /\ slots s' = slots s /\ (forall v x, denotes s v x -> denotes s' v x) /\ exists e G' o, ex prog (bindFrom 0 xs) G (fbody F) e G' o /\ Forall2 (denotes s') (globs s') G' /\
  match fresult F with Some _ => exists x, o = OReturn (Some x) /\ denotes s' (res s') x | None => o = ONext \/ o = OReturn None end.
Proof. intros. eapply call_says; eauto. Qed.
Print Assumptions C62_call_says.
Example C62_call_says_case :
  let s := St [VRef (Some 0%nat); VInt 7] (fun _ => VInt 0) [VRef None; VInt 4] (fun o => match o with 0%nat => 2 | _ => 0 end) (fun _ => [5; 6]) 1 (VInt 0) in
  Forall2 (denotes s) [VRef (Some 0%nat)] [SS [5; 6]] /\ Forall2 (denotes s) (globs s) [SS []; SI 4] /\
  match compile [true; false] small with
  | Ok funs => match exec funs 20 [ICall 1] s with Ok (s', g) => (g, stk s', res s', ostr s' 1%nat) = (Next, [VInt 7], VRef (Some 1%nat), [5; 6; 5; 6]) | _ => False end
  | _ => False end.
Proof. intros s. split; [repeat constructor|]. split; [repeat constructor|]. vm_compute. reflexivity. Qed.

(** Whatever a program comes to is what its source says. *)
Theorem C62_program_says : forall gty prog F n s g, nth_error prog 0 = Some F -> fparams F = [] -> fresult F = None -> run gty prog n = Ok (s, g) ->
  exists G, ends prog gty G /\ Forall2 (denotes s) (globs s) G.
Proof. exact program_says. Qed.
Print Assumptions C62_program_says.
Example C62_program_says_case : match run [true; false] small 100 with Ok (s, g) => (globs s, ostr s 2%nat) = ([VRef (Some 2%nat); VInt 6], [1; 2; 1; 2; 1; 2]) | _ => False end.
Proof. vm_compute. reflexivity. Qed.

(** A program ends, and with these values in its global variables, exactly when its source says so; in programs where no global variable is the left operand
    of a concatenation whose right operand calls a function. Full claim: all programs; C62_careless_refuted shows that it does not hold. *)
Theorem C62_program_meaning_partial : forall gty prog funs F G, compile gty prog = Ok funs -> nth_error prog 0 = Some F -> fparams F = [] -> fresult F = None -> carefulProg prog = true ->
  (ends prog gty G <-> exists n s g, run gty prog n = Ok (s, g) /\ Forall2 (denotes s) (globs s) G).
Proof. exact program_meaning. Qed.
Print Assumptions C62_program_meaning_partial.
Example C62_program_meaning_partial_case : carefulProg small = true /\ (exists funs, compile [true; false] small = Ok funs) /\ ends small [true; false] smallG.
Proof. split; [reflexivity|]. split; [eexists; vm_compute; reflexivity|exact C62_source_deterministic_case]. Qed.

(** A call that ends in the source comes to an end in the machine, from whatever state: with a result or in undefined behaviour, which C61_call_safe_partial excludes. *)
Theorem C62_call_ends : forall gty prog funs f F s al xs G e' G' o rest, compile gty prog = Ok funs -> nth_error prog f = Some F -> ex prog (bindFrom 0 xs) G (fbody F) e' G' o -> stk s = rev al ++ rest ->
  length al = length (fparams F) -> Forall2 (denotes s) al xs -> Forall2 (denotes s) (globs s) G -> exists n, exec funs n [ICall f] s <> Err EFuel.
Proof. intros. eapply call_ends; eauto. Qed.
Print Assumptions C62_call_ends.
Example C62_call_ends_case : exists e' o, ex small (bindFrom 0 [SS [5; 6]]) [SS []; SI 4] (fbody (nth 1 small (Fn [] None SSkip))) e' [SS []; SI 4] o.
Proof. eexists _, (OReturn (Some (SS [5; 6; 5; 6]))). cbn. apply ex_returnV. eapply (ev_cat _ _ _ _ _ [5; 6] [5; 6]); apply ev_local; reflexivity. Qed.

(** [s = new 3; t := s + f()] with [fn f(): str { s = ""; return "" }] ends in the source and never in the machine. *)
Theorem C62_careless_refuted : exists prog funs F G, compile [true] prog = Ok funs /\ nth_error prog 0 = Some F /\ fparams F = [] /\ fresult F = None /\ ends prog [true] G /\ forall n r, run [true] prog n <> Ok r.
Proof. exact careless_never. Qed.
Print Assumptions C62_careless_refuted.

(** C60: casts between numbers, strings and arrays. *)
From Coq Require Import ZArith Lia Bool List.
From Verif Require Import Base NumModel NumSpec ConvModel ConvSpec ConvExec ConvMain.
Import ListNotations.
Local Open Scope Z_scope.

(** Which casts the compiler takes. *)
Theorem C60_castable : forall same d t n, (forall a b, same a b = true -> a = b) ->
  (castable d t -> exists c n', cast same d t n = Ok (c, n')) /\ (~ castable d t -> cast same d t n = Err EOther).
Proof. intros same d t n Q. exact (cast_castable same Q d t n). Qed.
Print Assumptions C60_castable.

(** The code of a cast ends; it gives the converted value, or the error that the conversion has; and it changes no earlier variable or array.
    What is missing in full: a real stored as real32 is rounded. *)
Theorem C60_cast_partial : forall same d t n c n', (forall a b, same a b = true -> a = b) -> (forall k, kindReal k = true -> same (TNum k) (TNum k) = true) ->
  wfTy d -> wfTy t -> cast same d t n = Ok (c, n') ->
  forall s P v rest x, stk s = v :: rest -> srep s n P t v x -> (forall b, P b -> (b < hnext s)%nat) ->
  exists r fuel, (forall f, (fuel <= f)%nat -> exec f c s = r) /\
  match conv d t x with
  | Ok y => exists s' v', r = Ok s' /\ stk s' = v' :: rest /\ kept s s' n /\ srep s' n' (fun b => P b \/ (hnext s <= b < hnext s')%nat) d v' y
  | Err e => r = Err e
  | UB => False
  end.
Proof.
  intros same d t n c n' Q1 Q2 Wd Wt E s P v rest x St Sr Lt. destruct (cast_ok same Q1 Q2 d t n c n' Wd Wt E) as [G _]. specialize (G s P v rest x St Sr Lt).
  destruct (conv d t x) as [y|e|]; [|destruct (runs_exec _ _ _ G) as [f F]; eauto|contradiction].
  destruct G as (s' & v' & R & G). destruct (runs_exec _ _ _ R) as [f F]. exists (Ok s'), f. split; [exact F|]. exists s', v'. now split.
Qed.
Print Assumptions C60_cast_partial.

(** The items of a converted array are the converted items. *)
Theorem C60_items : forall d t l y, conv (TDyn d) (TDyn t) (DSeq l) = Ok y <-> exists m, y = DSeq m /\ Forall2 (fun a b => conv d t a = Ok b) l m.
Proof.
  intros d t l y. cbn [conv]. split.
  - destruct (convAll (conv d t) l) as [m|e|] eqn:E; try discriminate. cbn [bind]. intros Q. injection Q as <-. exists m. split; [reflexivity|now apply convAll_ok].
  - intros (m & -> & F). apply convAll_ok in F. now rewrite F.
Qed.
Print Assumptions C60_items.

(** There and back: an ordinal that converts to another type converts back to itself; so does a string without a zero character. *)
Theorem C60_number_back : forall d k x y, kindOrdinal d = true -> kindOrdinal k = true -> in_range k x -> convNum d k x = Ok y -> y = x /\ convNum k d y = Ok x.
Proof. exact num_round. Qed.
Print Assumptions C60_number_back.
Theorem C60_string_back : forall k s, ~ In 0 s -> exists y, conv (TDyn (TNum k)) TStr (DStr s) = Ok y /\ conv TStr (TDyn (TNum k)) y = Ok (DStr s).
Proof. exact str_round. Qed.
Print Assumptions C60_string_back.

(** A cast of an array to the type it has shares the items; a cast to an array type that was written anew copies them, even if the type is equal. *)
Theorem C60_shares : forall same t n, same (TDyn t) (TDyn t) = true -> cast same (TDyn t) (TDyn t) n = Ok ([], n).
Proof. exact cast_shares. Qed.
Print Assumptions C60_shares.
Theorem C60_copies : forall same d t n c n', (forall a b, same a b = true -> a = b) -> (forall k, kindReal k = true -> same (TNum k) (TNum k) = true) ->
  same (TDyn d) (TDyn t) = false -> wfTy d -> wfTy t -> cast same (TDyn d) (TDyn t) n = Ok (c, n') ->
  forall s P v rest x y, stk s = v :: rest -> srep s n P (TDyn t) v x -> (forall b, P b -> (b < hnext s)%nat) -> conv (TDyn d) (TDyn t) x = Ok y ->
  exists s' v', runs c s (Ok s') /\ stk s' = v' :: rest /\ loadPtr s' v' = Ok (VHdr (Some (hnext s))).
Proof. intros same d t n c n' Q1 Q2. exact (cast_copies same Q1 Q2 d t n c n'). Qed.
Print Assumptions C60_copies.
(** A char array with a zero does not come back from a string. *)
Theorem C60_chars_back_refuted : exists l y, conv TStr (TDyn (TNum KChar)) (DSeq l) = Ok y /\ conv (TDyn (TNum KChar)) TStr y <> Ok (DSeq l).
Proof. exists [DNum 65; DNum 0; DNum 66]. eexists. split; [reflexivity|discriminate]. Qed.
Print Assumptions C60_chars_back_refuted.

(** [][]int8 from [][]int in variable 0: {{1, 2}, {}, {-5}} is converted; {{1}, {300, 200}} overflows. *)
Definition same0 (a b : ty) : bool := match a, b with TNum j, TNum k => kindEqb j k | TStr, TStr => true | _, _ => false end.
Definition dd (k : kind) : ty := TDyn (TDyn (TNum k)).
Definition hp : nat -> list value := fun b => match b with 0 => [VHdr (Some 1%nat); VHdr None; VHdr (Some 2%nat)] | 1 => [VNum 1; VNum 2] | 2 => [VNum (-5)] | _ => [] end%nat.
Definition sA : st := St [VRef (PSlot 0)] (fun _ => VHdr (Some 0%nat)) hp 3.
Definition xA : dval := DSeq [DSeq [DNum 1; DNum 2]; DSeq []; DSeq [DNum (-5)]].
Definition codeA : list instr := match cast same0 (dd KInt8) (dd KInt) 1 with Ok (c, _) => c | _ => [] end.
Example C60_case : (forall a b, same0 a b = true -> a = b) /\ (forall k, kindReal k = true -> same0 (TNum k) (TNum k) = true) /\ wfTy (dd KInt8) /\ wfTy (dd KInt)
  /\ cast same0 (dd KInt8) (dd KInt) 1 = Ok (codeA, 7%nat) /\ srep sA 1 (fun b => (b < 3)%nat) (dd KInt) (VRef (PSlot 0)) xA /\ conv (dd KInt8) (dd KInt) xA = Ok xA.
Proof.
  split; [intros [| | | |] [| | | |] E; cbn in E; try discriminate; [|reflexivity]; unfold kindEqb in E; destruct (kindEq k k0); [now subst|discriminate]|].
  split; [intros [] E; (discriminate || reflexivity)|]. split; [reflexivity|]. split; [reflexivity|]. split; [reflexivity|]. split.
  - exists (PSlot 0), (VHdr (Some 0%nat)). split; [reflexivity|]. split; [reflexivity|]. split; [|lia].
    cbn. unfold small. cbn. unfold numRep. cbn. unfold holds, in_range, in_s64. cbn.
    repeat first [lia | reflexivity | constructor]; vm_compute; discriminate.
  - reflexivity.
Qed.
Example C60_over : conv (dd KInt8) (dd KInt) (DSeq [DSeq [DNum 1]; DSeq [DNum 300; DNum 200]]) = Err EOverflow.
Proof. reflexivity. Qed.
Example C60_run : match exec 200 codeA sA with Ok s => match stk s with [v] => loadPtr s v = Ok (VHdr (Some 3%nat)) /\ heap s 3%nat = [VHdr (Some 6%nat); VHdr (Some 5%nat); VHdr (Some 4%nat)] /\ heap s 6%nat = [VNum 1; VNum 2] | _ => False end | _ => False end.
Proof. vm_compute. repeat split. Qed.

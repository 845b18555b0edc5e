(** C33: logical operators with constant and other operands. *)
From Coq Require Import ZArith List.
From Verif Require Import Base NumModel NumSpec ExprModel ExprSpec ExprProofs.
Import ListNotations.
Local Open Scope Z_scope.

(** Missing for the full statement: constants with false before && or true before || (see C33_refuted). *)
Theorem C33_const_partial : forall lm t a k v rest, G LExpr t a -> typeOf a = Some k -> full lm a = Ok v -> noSkip lm a -> ends 6 rest ->
  exists n0, forall n, (n0 <= n)%nat -> parse lm true n LExpr (t ++ rest) = Ok (k, IConst v, rest) /\
    exists c, parse lm false n LExpr (t ++ rest) = Ok (k, ICode c, rest) /\ forall env, eval lm env c = Ok v.
Proof. exact const_thm. Qed.
Print Assumptions C33_const_partial.

Theorem C33_code : forall lm ts k rest,
  (forall n it, parse lm false n LExpr ts = Ok (k, it, rest) -> exists t a c, ts = t ++ rest /\ G LExpr t a /\ typeOf a = Some k /\ it = ICode c /\ forall env, eval lm env c = value lm env a) /\
  (forall t a, ts = t ++ rest -> G LExpr t a -> typeOf a = Some k -> ends 6 rest -> exists n0 c, forall n, (n0 <= n)%nat -> parse lm false n LExpr ts = Ok (k, ICode c, rest) /\ forall env, eval lm env c = value lm env a).
Proof. exact code_thm. Qed.
Print Assumptions C33_code.

(** "(false && true)" is rejected as a constant, "(false &&)" and "(0 &&)" are accepted, "true ? 1 : 1 / 0" is an error, while at run
    time the first is false, the next two are rejected and the last is 1. *)
Theorem C33_refuted : forall lm,
  (let ts := [TkLPar; TkConst KBool 0; TkOp TAndAnd; TkConst KBool 1; TkRPar] in
   parse lm true 30 LExpr ts = Err ESyntax /\ exists c, parse lm false 30 LExpr ts = Ok (KBool, ICode c, []) /\ forall env, eval lm env c = Ok 0) /\
  (let ts := [TkLPar; TkConst KBool 0; TkOp TAndAnd; TkRPar] in parse lm true 30 LExpr ts = Ok (KBool, IConst 0, []) /\ parse lm false 30 LExpr ts = Err ESyntax) /\
  (let ts := [TkLPar; TkInt 0; TkOp TAndAnd; TkRPar] in parse lm true 30 LExpr ts = Ok (KInt, IConst 0, []) /\ parse lm false 30 LExpr ts = Err ESyntax) /\
  (let ts := [TkConst KBool 1; TkQuestion; TkInt 1; TkColon; TkInt 1; TkOp (TArith OpDiv); TkInt 0] in
   parse lm true 30 LExpr ts = Err EDivZero /\ exists c, parse lm false 30 LExpr ts = Ok (KInt, ICode c, []) /\ forall env, eval lm env c = Ok 1).
Proof.
  intros lm. cbv zeta. split; [|split; [|split]].
  - split; [vm_compute; reflexivity|]. exists (RAnd (RLit 0) (RLit 1)). split; [vm_compute; reflexivity|]. intros env. reflexivity.
  - split; vm_compute; reflexivity.
  - split; vm_compute; reflexivity.
  - split; [vm_compute; reflexivity|]. exists (RCond (RLit 1) (RLit 1) (RBin OpDiv KInt (RLit 1) (RLit 0))). split; [vm_compute; reflexivity|]. intros env. reflexivity.
Qed.
Print Assumptions C33_refuted.

(** true && (1 + 2 * 3 == 7) || false, as a constant. *)
Example C33_example : forall lm,
  let t1 := [TkInt 1; TkOp (TArith OpPlus); TkInt 2; TkOp (TArith OpMul); TkInt 3; TkOp (TArith OpEqEq); TkInt 7] in
  let a1 := ABin OpEqEq (ABin OpPlus (AInt 1) (ABin OpMul (AInt 2) (AInt 3))) (AInt 7) in
  G LExpr (TkConst KBool 1 :: TkOp TAndAnd :: TkLPar :: t1 ++ [TkRPar]) (AAnd (AConst KBool 1) a1) /\
  typeOf (AAnd (AConst KBool 1) a1) = Some KBool /\ full lm (AAnd (AConst KBool 1) a1) = Ok 1 /\ noSkip lm (AAnd (AConst KBool 1) a1) /\ ends 6 [TkOther].
Proof.
  intros lm t1 a1. split; [|split; [reflexivity|split; [reflexivity|split; [cbn; repeat split; discriminate|exact Logic.I]]]].
  assert (H1 : forall v, G LFactor [TkInt v] (AInt v)) by (intros; constructor).
  assert (H2 : G LRelTerm [TkInt 1; TkOp (TArith OpPlus); TkInt 2; TkOp (TArith OpMul); TkInt 3] (ABin OpPlus (AInt 1) (ABin OpMul (AInt 2) (AInt 3)))).
  { apply (GSum [TkInt 1] (AInt 1) OpPlus [TkInt 2; TkOp (TArith OpMul); TkInt 3]); [apply GSum0, GTerm0, H1|cbn; tauto|]. apply (GTerm [TkInt 2] (AInt 2) OpMul [TkInt 3]); [apply GTerm0, H1|cbn; tauto|apply H1]. }
  assert (H3 : G LRel t1 a1) by (apply (GRel _ _ OpEqEq [TkInt 7] _ H2); [cbn; tauto|apply GSum0, GTerm0, H1]).
  apply GExpr0, GOr0. apply (GAnd [TkConst KBool 1] (AConst KBool 1) (TkLPar :: t1 ++ [TkRPar]) a1); [apply GAnd0, GRel0, GSum0, GTerm0, GConst|].
  apply GRel0, GSum0, GTerm0, GPar. apply GExpr0, GOr0, GAnd0. exact H3.
Qed.

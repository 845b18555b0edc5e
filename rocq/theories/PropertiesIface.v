(** C58: interfaces. *)
From Coq Require Import ZArith Lia Bool List.
From Verif Require Import Base IfaceModel IfaceSpec IfaceProofs IfaceMore.
Import ListNotations.
Local Open Scope Z_scope.

(** An interface declaration is accepted exactly if the names of its methods, with the embedded ones, differ; these are its methods. *)
Theorem C58_declaration S (tab : nat -> list (nat * S)) its l :
  let all := flat_map (fun it => match it with IMethod _ n s => [(n, s)] | IEmbed _ i => meths S tab i end) its in
  (parseInterface S tab [] its = Ok l <-> NoDup (map fst all) /\ l = all) /\ (~ NoDup (map fst all) -> parseInterface S tab [] its = Err EOther).
Proof.
  change (flat_map _ its) with (flatten S tab its). intros all. destruct (parse_spec S (fun _ _ => true) tab its [] ltac:(constructor)) as [[N E]|[N E]]; cbn [app] in N, E; rewrite E; subst all.
  - split; [split; [intros [= <-]; auto|intros [_ ->]; reflexivity]|tauto].
  - split; [split; [discriminate|tauto]|auto].
Qed.
Print Assumptions C58_declaration.

(** An expression is accepted exactly if every conversion is to an interface whose methods the source has, with compatible types, and every method
    called is one of the interface. *)
Theorem C58_accepted T S find isNull compat tab (e : expr T S) next :
  (forall s, compat s s = true) -> Forall (fun i => NoDup (map fst (meths S tab i))) (exprTypes T S e) ->
  ((exists r, genExpr T S find isNull compat tab e next = Ok r) <-> acceptedExpr T S find isNull compat tab e)
  /\ (~ acceptedExpr T S find isNull compat tab e -> genExpr T S find isNull compat tab e next = Err EOther).
Proof.
  intros R N. destruct (proj1 (expr_accept T S find isNull compat (fun _ _ => true) tab R) e N next) as [[A (r & E)]|[A E]]; rewrite E.
  - split; [split; eauto|tauto].
  - split; [split; [intros (r & H); discriminate|tauto]|auto].
Qed.
Print Assumptions C58_accepted.

(** The code of an expression makes the calls it should, in order: each calls the method of that name of the type the pointer had when it was first
    converted, whatever interfaces it was converted to since, and passes that pointer as receiver. If there is no such method the error is
    that of calling an undefined function. The variables may hold any interface values, and the called functions may replace them. *)
Theorem C58_dispatch T S find isNull compat equiv tab eff decl (e : expr T S) next c next' st :
  (forall f ps vs, good T S find isNull tab decl vs -> good T S find isNull tab decl (fst (fst (eff f ps vs)))) ->
  genExpr T S find isNull compat tab e next = Ok (c, next') -> (forall x, In x (exprVars T S e) -> In x decl) -> good T S find isNull tab decl (vars T st) ->
  match sem T S find isNull eff e (vars T st) with
  | Ok (l, vs, v) => good T S find isNull tab decl vs /\ exists tm se re, exec T equiv eff c st = Ok (St T (v :: stk T st) vs tm se re (log T st ++ l))
  | Err x => exec T equiv eff c st = Err x
  | UB => False
  end.
Proof. intros K. exact (proj1 (expr_ok T S find isNull compat equiv tab eff decl K) e next c next' st). Qed.
Print Assumptions C58_dispatch.

(** The result of a conversion can be stored in a variable: its cells are those of a variable with this pointer and this type. *)
Theorem C58_conversion T S find isNull compat equiv tab eff decl s i next c next' st :
  genSource T S find isNull compat tab s next = Ok (c, next') -> staticType T S s = TyI T S i ->
  (forall x, In x (sourceVars T S s) -> In x decl) -> good T S find isNull tab decl (vars T st) ->
  exists v tm, exec T equiv eff c st = Ok (St T (v :: stk T st) (vars T st) tm (self T st) (result T st) (log T st))
    /\ (forall x, (x < next)%nat -> tm x = tmps T st x)
    /\ match v with
       | VVar _ k => content T S (vars T st) s = (vars T st k, vars T st (k + 1)%nat) /\ holds T S find isNull tab (vars T st) k i
       | VTmp _ k => content T S (vars T st) s = (tm k, tm (k + 1)%nat) /\ holds T S find isNull tab tm k i
       | _ => False
       end.
Proof.
  intros G ST D Gd. destruct (source_ok T S find isNull compat equiv tab eff decl s next c next' st G D Gd) as (v & tm & X & _ & B & H). rewrite ST in H. destruct H as (Ins & H0 & H1 & H2).
  exists v, tm. split; [exact X|]. split; [exact B|]. destruct (content T S (vars T st) s) as [p ty]. cbn [fst snd] in *.
  destruct v as [z|q|t|k|k]; try (destruct Ins; fail); cbn [at_ vars tmps] in *; rewrite Nat.add_0_r in H0; injection H0 as <-; injection H1 as <-;
    (split; [reflexivity|]); intros j n sg N; specialize (H2 j n sg N); congruence.
Qed.
Print Assumptions C58_conversion.

(** The method called has a type compatible with that in the interface, if compatibility is transitive. *)
Theorem C58_signatures T S find isNull compat tab (vs : nat -> val T) s i t n sg :
  (forall a b c, compat a b = true -> compat b c = true -> compat a c = true) -> accepted T S find isNull compat tab s ->
  (forall k i, In (k, i) (sourceVars T S s) -> fits T S find isNull compat tab (vs (k + 1)%nat) i) ->
  staticType T S s = TyI T S i -> snd (content T S vs s) = VType T t -> isNull t = false -> In (n, sg) (meths S tab i) ->
  exists e sg', find t n = Some (e, sg') /\ compat sg sg' = true.
Proof. intros TR A V ST C N I. exact (source_fits T S find isNull compat tab vs s TR A V i ST t C N n sg I). Qed.
Print Assumptions C58_signatures.

(** A type assertion gives the pointer if its type is equivalent, and null otherwise. *)
Theorem C58_assertion T S find isNull compat equiv tab eff decl s next c next' st i t :
  genSource T S find isNull compat tab s next = Ok (c, next') -> staticType T S s = TyI T S i ->
  (forall x, In x (sourceVars T S s) -> In x decl) -> good T S find isNull tab decl (vars T st) ->
  (exists t', snd (content T S (vars T st) s) = VType T t') \/ snd (content T S (vars T st) s) = VInt T 0 ->
  exists st', exec T equiv eff (c ++ [IAssert T t]) st = Ok st' /\ vars T st' = vars T st /\
    stk T st' = match snd (content T S (vars T st) s) with VType _ t' => if equiv t t' then fst (content T S (vars T st) s) else VInt T 0 | _ => VInt T 0 end :: stk T st.
Proof. exact (assert_ok T S find isNull compat equiv tab eff decl s next c next' st i t). Qed.
Print Assumptions C58_assertion.

(** Type 1 has methods 10, 11, 12; type 2 has method 10; type 0 is ^null. Interfaces 1 and 2 have two methods in different orders. *)
Definition find1 (t n : nat) : option (Z * nat) :=
  match t, n with 1, 10 => Some (100%Z, 5) | 1, 11 => Some (110%Z, 6) | 1, 12 => Some (120%Z, 7) | 2, 10 => Some (200%Z, 5) | _, _ => None end%nat.
Definition tab1 (i : nat) : list (nat * nat) := match i with 1 => [(10, 5); (11, 6)] | 2 => [(11, 6); (10, 5)] | _ => [] end%nat.
Definition i3 : iface nat := IAnon nat [(12, 7); (11, 6); (10, 5)]%nat.
Definition null1 (t : nat) : bool := Nat.eqb t 0.
Definition eff1 (f : Z) (ps : list (val nat)) (vs : nat -> val nat) : (nat -> val nat) * val nat * val nat := (vs, VInt nat 77, VInt nat (f + 1)).
Definition src1 : source nat nat := SConv nat nat (INamed nat 2) (SConv nat nat (INamed nat 1) (SConv nat nat i3 (SPtr nat nat (VPtr nat 7) 1%nat))).
Definition src2 : source nat nat := SConv nat nat (IAnon nat [(10, 5)]%nat) (SPtr nat nat (VPtr nat 8) 2%nat).
Definition call1 : expr nat nat := ECall nat nat src1 11 (ECons nat nat (ECall nat nat src2 10 (ENil nat nat)) (ECons nat nat (EInt nat nat 3) (ENil nat nat))).
Definition st1 : state nat := St nat [] (fun _ => VInt nat 0) (fun _ => VInt nat 0) (VInt nat 0) (VInt nat 0) [].
Definition run1 (e : expr nat nat) : outcome (list (val nat) * list (Z * list (val nat))) :=
  let* (c, _) := genExpr nat nat find1 null1 Nat.eqb tab1 e 0 in let* s := exec nat Nat.eqb eff1 c st1 in Ok (stk nat s, log nat s).
Example call1_runs :
  acceptedExpr nat nat find1 null1 Nat.eqb tab1 call1
  /\ run1 call1 = Ok ([VInt nat 111], [(200, [VPtr nat 8]); (110, [VPtr nat 7; VInt nat 201; VInt nat 3])])
  /\ sem nat nat find1 null1 eff1 call1 (fun _ => VInt nat 0) = Ok ([(200, [VPtr nat 8]); (110, [VPtr nat 7; VInt nat 201; VInt nat 3])], fun _ => VInt nat 0, VInt nat 111).
Proof.
  split; [|split; reflexivity]. assert (R : forall s, Nat.eqb s s = true) by apply Nat.eqb_refl.
  apply (C58_accepted nat nat find1 null1 Nat.eqb tab1 call1 0 R); [|eexists; reflexivity].
  cbn. repeat (apply Forall_cons || apply Forall_nil); repeat (constructor || (cbn; intuition discriminate)).
Qed.
(** Null interfaces, a widening conversion and a wrong type. *)
Example others :
  run1 (ECall nat nat (SConv nat nat i3 (SPtr nat nat (VInt nat 0) 0%nat)) 12 (ENil nat nat)) = Err EIllegalFn
  /\ run1 (ECall nat nat (SVar nat nat 4 i3) 12 (ENil nat nat)) = Err EIllegalFn
  /\ genExpr nat nat find1 null1 Nat.eqb tab1 (ECall nat nat (SConv nat nat i3 src2) 10 (ENil nat nat)) 0 = Err EOther
  /\ (let* (c, _) := genSource nat nat find1 null1 Nat.eqb tab1 src1 0 in let* s := exec nat Nat.eqb eff1 (c ++ [IAssert nat 1%nat]) st1 in Ok (stk nat s)) = Ok [VPtr nat 7]
  /\ (let* (c, _) := genSource nat nat find1 null1 Nat.eqb tab1 src1 0 in let* s := exec nat Nat.eqb eff1 (c ++ [IAssert nat 2%nat]) st1 in Ok (stk nat s)) = Ok [VInt nat 0].
Proof. repeat split; reflexivity. Qed.
(** All variables zero: the variables are good, also after every call. *)
Example good1 : good nat nat find1 null1 tab1 [(4, i3)]%nat (vars nat st1)
  /\ forall f ps vs, good nat nat find1 null1 tab1 [(4, i3)]%nat vs -> good nat nat find1 null1 tab1 [(4, i3)]%nat (fst (fst (eff1 f ps vs))).
Proof. split; [intros k i _ j n sg _; reflexivity|auto]. Qed.

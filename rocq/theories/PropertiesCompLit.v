(** C69: composite literals hold the values of their items. *)
Require Import ZArith List Bool String Lia.
Require Import Verif.Base Verif.CompLitModel Verif.CompLitSpec Verif.CompLitCheck.
Require Import Verif.CompLitProofs Verif.CompLitMore.
Import ListNotations.
Local Open Scope nat_scope.
Local Open Scope string_scope.

(** The compiler accepts a literal if and only if it is well formed: an array
    literal has exactly as many items as the array; a structure literal has one
    item for every field, or names fields, each at most once; every item has the
    type expected in its place. *)
Theorem C69_accepts : forall tys e t, wf e ->
  (check tys e = Some t <-> hasTy tys e t).
Proof. exact check_iff. Qed.
Print Assumptions C69_accepts.

(** Two fields and a nested array. *)
Definition pt : ty := TRec (FCons "x" TInt (FCons "y" TInt FNil)).
Definition seg : ty := TRec (FCons "a" pt (FCons "w" (TArr 2 TInt) (FCons "b" pt FNil))).

Definition segLit : expr :=
  ELit seg (ICons (Some "b") (ELit pt (ICons None (ENum 3) (ICons None (ENum 4) INil)))
           (ICons (Some "w") (ELit (TArr 2 TInt)
                               (ICons None (ENum 5) (ICons None (ENum 6) INil)))
            INil)).

Example C69_accepts_ex :
  check [] segLit = Some seg /\
  check [] (ELit pt (ICons (Some "x") (ENum 1) (ICons (Some "x") (ENum 2) INil))) = None /\
  check [] (ELit pt (ICons None (ENum 1) INil)) = None /\
  check [] (ELit pt INil) = Some pt /\
  check [] (ELit (TArr 2 TInt) INil) = None.
Proof. vm_compute. auto. Qed.

(** An expression made of literals, evaluated in a state whose variables hold the
    values of a store, yields what the meaning of the literals says: every item
    is evaluated once, in the order of the text; a named item ends up in its
    field wherever it stands, a field without an item is zero; nested literals,
    dynamic arrays and maps included. The variables hold what the items assigned
    to them, and no other temporary variable and no existing array or map
    changes.

    Excluded by [safe]: literals of dynamic arrays in which a structured variable
    is an item and a later item assigns the same variable. *)
Theorem C69_values_partial : forall tys addr lim e t st s,
  layout tys addr lim -> lim <= top st -> varsHold tys addr st s ->
  wf e -> safe e -> check tys e = Some t ->
  exists sl st',
    run tys addr e st = Ok (sl, st') /\
    holds st' t sl (fst (ev e s)) /\
    varsHold tys addr st' (snd (ev e s)) /\
    (forall i, lim <= i < top st -> stk st' i = stk st i) /\
    (forall o, o < List.length (objs st) ->
       nth_error (objs st') o = nth_error (objs st) o).
Proof. exact literals. Qed.
Print Assumptions C69_values_partial.

(** One variable of the type [pt] at address 0, holding {1, 2}. *)
Definition st0 : state :=
  mkState (fun i => match i with 0 => CInt 1 | _ => CInt 2 end) 2 [].
Definition s0 : store := [VSeq [VNum 1; VNum 2]].

Lemma st0_ok : layout [pt] [0] 2 /\ varsHold [pt] [0] st0 s0.
Proof.
  split.
  - split; [reflexivity|]. split.
    + intros [|x] t a Hx Ha; cbn in *; [|destruct x; discriminate].
      injection Hx as <-. injection Ha as <-. cbn. lia.
    + intros [|x] [|y] t u a b Hne Hx Ha Hy Hb; cbn in *; try congruence;
        [destruct y; discriminate|destruct x; discriminate|destruct x; discriminate].
  - split; [reflexivity|].
    intros [|x] t a v Hx Ha Hv; cbn in *; [|destruct x; discriminate].
    injection Hx as <-. injection Ha as <-. injection Hv as <-.
    constructor. cbn [fieldList map snd].
    apply (Rs_Cons _ _ TInt [TInt] [CInt 1] [CInt 2] (VNum 1) [VNum 2]); [constructor|].
    apply (Rs_Cons _ _ TInt [] [CInt 2] [] (VNum 2) []); constructor.
Qed.

(** [2]pt{p, q}: the second item assigns p. The first one keeps the old value. *)
Definition keepLit (t : ty) : expr :=
  ELit t (ICons None (EVar 0)
         (ICons None
            (ELit pt (ICons (Some "y")
               (ESet 0 (ELit pt (ICons None (ENum 7) (ICons None (ENum 8) INil))))
               INil)) INil)).

Example C69_values_ex :
  wf (keepLit (TArr 2 pt)) /\ safe (keepLit (TArr 2 pt)) /\
  check [pt] (keepLit (TArr 2 pt)) = Some (TArr 2 pt) /\
  ev (keepLit (TArr 2 pt)) s0
    = (VSeq [VSeq [VNum 1; VNum 2]; VSeq [VNum 0; VNum 0]],
       [VSeq [VNum 7; VNum 8]]) /\
  fst (ev segLit [])
    = VSeq [VSeq [VNum 0; VNum 0]; VSeq [VNum 5; VNum 6]; VSeq [VNum 3; VNum 4]].
Proof.
  split; [|split; [|vm_compute; auto]].
  - cbn. unfold uniq; cbn.
    assert (N : NoDup ["x"; "y"]).
    { constructor; [intros [H|[]]; discriminate|]. constructor; [intros []|constructor]. }
    auto 10.
  - cbn. auto 10.
Qed.

(** The full claim is false: the items of a literal of a dynamic array are
    collected as addresses, and copied when all of them have been evaluated, so a
    variable that a later item assigns appears with its new value. The same
    items in a literal of an array keep the old value, see above. *)
Theorem C69_dynarray_refuted :
  exists tys addr st s e t sl st',
    layout tys addr (top st) /\ varsHold tys addr st s /\ wf e /\
    check tys e = Some t /\ run tys addr e st = Ok (sl, st') /\
    ~ holds st' t sl (fst (ev e s)).
Proof.
  destruct st0_ok as [L V].
  eexists [pt], [0], st0, s0, (keepLit (TDyn pt)), (TDyn pt), _, _.
  split; [exact L|]. split; [exact V|]. split.
  { cbn. unfold uniq; cbn.
    assert (N : NoDup ["x"; "y"]).
    { constructor; [intros [H|[]]; discriminate|]. constructor; [intros []|constructor]. }
    auto 10. }
  split; [vm_compute; reflexivity|]. split; [vm_compute; reflexivity|].
  intros (cs & Hl & Hr). vm_compute in Hl. injection Hl as <-.
  inversion Hr as [| | | |t o cs vs _ Ho HR E1 E2 E3| |]; subst.
  vm_compute in Ho. injection Ho as <-. cbn [List.length repeat] in HR.
  inversion HR as [|? ? c1 ? ? ? R1 R2 E4 E5 E6]; subst.
  inversion R1 as [| |? ? ? Q E7 E8 E9| | | |]; subst.
  cbn [fieldList map snd] in Q.
  inversion Q as [|? ? c2 ? ? ? R3 R4 E10 E11 E12]; subst.
  inversion R3; subst. cbn in E5. discriminate.
Qed.
Print Assumptions C69_dynarray_refuted.

(** In a map literal the last item given to a key counts, and every key occurs
    once. *)
Theorem C69_map_last : forall t ps s,
  exists kvs, fst (ev (EMap t ps) s) = VMap kvs /\
    NoDup (map fst kvs) /\
    forall k, mapGet kvs k = lastOf (evKeys ps s) k.
Proof.
  intros t ps s. exists (fst (evPairs ps [] s)).
  cbn [ev]. fold evPairs. pose proof (evPairs_NoDup ps [] s (NoDup_nil _)) as N.
  pose proof (evPairs_last ps [] s) as G.
  destruct (evPairs ps [] s) as [l s1]. cbn [fst] in *.
  split; [auto|]. split; [auto|].
  intros k. rewrite G. now destruct (lastOf (evKeys ps s) k).
Qed.
Print Assumptions C69_map_last.

Example C69_map_ex :
  ev (EMap TInt (PCons (ENum 1) (ENum 10) (PCons (ENum 2) (ENum 20)
        (PCons (ENum 1) (ENum 30) PNil)))) []
  = (VMap [(1, VNum 30); (2, VNum 20)], [])%Z.
Proof. reflexivity. Qed.

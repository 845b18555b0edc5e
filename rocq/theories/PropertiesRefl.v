(** C79: the types a C function is told. *)
From Coq Require Import ZArith Lia Bool List String.
From Verif Require Import Base ReflModel ReflSpec ReflProofs ReflMore.
Import ListNotations.
Local Open Scope Z_scope.

(** The layout made for a function fits its block of memory, and every question about parameters and result, whatever the index,
    is answered from inside the block as the function was declared. *)
Theorem C79_params : forall hidden ps result structured ptrResult g locals,
  parseSignature hidden ps result structured ptrResult = Ok g ->
  exists b, makeLayout g locals = Ok b /\ tells hidden ps result structured locals b.
Proof. exact layout_tells. Qed.
Print Assumptions C79_params.
(** Up to 15 parameters, or 14 with a structured result, can be declared. *)
Theorem C79_accept : forall hidden ps result (structured : bool) ptrResult, (List.length ps + (if structured then 2 else 1) <= 16)%nat ->
  exists g, parseSignature hidden ps result structured ptrResult = Ok g.
Proof. exact parse_runs. Qed.
Print Assumptions C79_accept.
Example C79_example : exists g b, parseSignature (9%nat, 2) [(1%nat, 1); (5%nat, 3); (2%nat, 1)] 7 true 8 = Ok g /\ makeLayout g 4 = Ok b /\
  getParamType b 1 = Ok (Some 5%nat) /\ getParam b 1 = Ok (Some 2) /\ getParamType b 3 = Ok None /\ getResultType b = Ok (Some 7%nat).
Proof. do 2 eexists. split; [reflexivity|]. split; [reflexivity|]. repeat split. Qed.

(** In a callback of a released block there are no types. *)
Theorem C79_callback : exists b, onFreeLayout = Ok b /\ (forall i, getParamType b i = Ok None) /\ getResultType b = Ok None /\
  getParam b 0 = Ok (Some 0) /\ forall i, i <> 0 -> getParam b i = Ok None.
Proof.
  eexists. split; [reflexivity|]. repeat split.
  - intros i. unfold getParamType. cbn [bind readInt inside nth].
    change (readInt _ 0) with (Ok 2). change (readInt _ 1) with (Ok 0). cbn [bind].
    destruct (Z.ltb_spec i 0); [reflexivity|]. destruct (Z.leb_spec (2 - 0 - 1) i); [reflexivity|]. replace i with 0 by lia. reflexivity.
  - intros i N. unfold getParam. change (readInt _ 0) with (Ok 2). change (readInt _ 1) with (Ok 0). cbn [bind].
    destruct (Z.ltb_spec i 0); [reflexivity|]. destruct (Z.leb_spec (2 - 0 - 1) i); [reflexivity|lia].
Qed.
Print Assumptions C79_callback.

(** For every type a program writes, however nested: in every later state of the compiler in which the types made for it are
    unchanged, the API tells its base, its fields, its keys and its items as written, at every level, and NULL for everything the
    type has not got. *)
Theorem C79_types : forall comparable intType e T u T', build comparable intType e T = Ok (u, T') ->
  (forall i, (i < List.length T)%nat -> nth_error T' i = nth_error T i) /\
  forall T'', same (List.length T) T' T'' -> describes T'' u e.
Proof. intros * H. destruct (build_good _ _ _ _ _ _ H) as (_ & A & B). auto. Qed.
Print Assumptions C79_types.
(** Types 0 and 1 are int and void. A structure of a map from ints to arrays of weak pointers, and a pointer; a second field of the
    same name, and items of type void, are rejected. *)
Definition exT : types := [MkT KOther None []; MkT KVoid None []].
Definition exE : texpr := XStruct (FCons "m" (XMap (XOld 0) (XDyn (XWeak (XOld 0)))) (FCons "p" (XPtr (XOld 1)) FNil)).
Example C79_example_types : exists u T', build (fun _ _ => true) 0 exE exT = Ok (u, T') /\ getFieldType T' u "p" = Ok (Some 10%nat) /\
  getBaseType T' 10 = Ok (Some 1%nat) /\ getFieldType T' u "q" = Ok None.
Proof. do 2 eexists. split; [reflexivity|]. repeat split. Qed.
Example C79_example_rejected : build (fun _ _ => true) 0 (XStruct (FCons "m" (XOld 0) (FCons "m" (XOld 0) FNil))) exT = Err EIllegalType /\
  build (fun _ _ => true) 0 (XDyn (XOld 1)) exT = Err EIllegalType /\ build (fun _ _ => true) 0 (XMap (XOld 0) (XOld 1)) exT = Err EIllegalType /\
  build (fun _ _ => false) 0 (XMap (XOld 0) (XOld 0)) exT = Err EIllegalType.
Proof. repeat split. Qed.

(** Every map type with comparable keys and items that are not void is accepted. *)
Theorem C79_maps : forall comparable intType k v T key T1 item T3 x, plain T intType ->
  build comparable intType k (T ++ [MkT KMap None []]) = Ok (key, T1) -> comparable T1 key = true ->
  build comparable intType v (T1 ++ [MkT KPtr (Some key) []]) = Ok (item, T3) -> nth_error T3 item = Some x -> t_kind x <> KVoid ->
  exists T', build comparable intType (XMap k v) T = Ok (List.length T, T').
Proof. exact map_runs. Qed.
Print Assumptions C79_maps.
Example C79_example_maps : plain exT 0 /\ exists x, nth_error exT 0 = Some x /\ t_kind x <> KVoid.
Proof. split; [exists (MkT KOther None [])|exists (MkT KOther None [])]; repeat split; discriminate. Qed.

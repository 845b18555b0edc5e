(** C81: lists of names in declarations. *)
From Coq Require Import Arith List.
From Verif Require Import Base NamesModel NamesSpec NamesProofs.
Import ListNotations.

(** C81: whatever the arrays held before, a list of names is read exactly if there is one of one to sixteen names, and what is read is
    what is written, with all its export marks. *)
Theorem C81_names : forall names ex l ns rest, length names = 16 -> length ex = 16 -> fine l ->
  (readNames names ex l = Ok (ns, rest) <-> l = listing ns ++ rest /\ ns <> [] /\ length ns <= 16 /\ endsAfter ns rest).
Proof. exact names_iff. Qed.
Print Assumptions C81_names.
Example C81_names_ex : fine [KId [97]; KStar; KComma; KId [98]; KColon]
  /\ readNames (repeat [7] 16) (repeat true 16) [KId [97]; KStar; KComma; KId [98]; KColon] = Ok ([([97], true); ([98], false)], [KColon]).
Proof.
  split; [|reflexivity]. intros n [H|[H|[H|[H|[H|[]]]]]]; try discriminate; injection H as <-; apply Nat.leb_le; reflexivity.
Qed.

(** C81: no array is overrun, whatever the tokens are. *)
Theorem C81_safe : forall names ex l, length names = 16 -> length ex = 16 -> fine l -> readNames names ex l <> UB.
Proof. exact names_safe. Qed.
Print Assumptions C81_safe.
Example C81_safe_ex : fine [KComma; KStar; KId [97]] /\ length (repeat ([] : name) 16) = 16.
Proof. split; [|reflexivity]. intros n [H|[H|[H|[]]]]; try discriminate; injection H as <-; apply Nat.leb_le; reflexivity. Qed.

(** C81: more than sixteen names are an error. *)
Theorem C81_many : forall names ex ns rest, length names = 16 -> length ex = 16 -> fine (listing ns ++ rest) -> 16 < length ns ->
  readNames names ex (listing ns ++ rest) = Err ETooMany.
Proof. exact names_many. Qed.
Print Assumptions C81_many.
Example C81_many_ex : fine (listing (repeat ([97], true) 17) ++ [KColon]) /\ 16 < length (repeat ([97], true) 17).
Proof.
  split; [|apply Nat.leb_le; reflexivity]. intros n H. apply Nat.leb_le. cbn in H.
  repeat (destruct H as [H|H]; [try discriminate; injection H as <-; reflexivity|]). contradiction.
Qed.

(** C81: a declaration, of one item or of a group of any number of them, gives every name the type written after its own list. *)
Theorem C81_decl : forall names ex, length names = 16 -> length ex = 16 ->
  (forall x rest, fine (itemText x ++ rest) -> goodItem x -> varDecl names ex (KVar :: itemText x ++ rest) = Ok ([x], rest)) /\
  (forall g rest, fine (groupText g ++ KRpar :: rest) -> Forall goodItem g ->
     varDecl names ex (KVar :: KLpar :: groupText g ++ KRpar :: rest) = Ok (g, rest)).
Proof. exact (fun names ex L1 L2 => conj (fun x rest => decl_one names ex x rest L1 L2) (fun g rest => decl_group names ex g rest L1 L2)). Qed.
Print Assumptions C81_decl.
Example C81_decl_ex : Forall goodItem [([([97], true); ([98], false)], 1); ([([99], false)], 2)]
  /\ varDecl (repeat [] 16) (repeat false 16)
       [KVar; KLpar; KId [97]; KStar; KComma; KId [98]; KColon; KTy 1; KSemi; KId [99]; KColon; KTy 2; KSemi; KRpar; KSemi]
     = Ok ([([([97], true); ([98], false)], 1); ([([99], false)], 2)], [KSemi]).
Proof. split; [|reflexivity]. repeat constructor; discriminate. Qed.

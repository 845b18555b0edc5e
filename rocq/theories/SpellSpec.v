(** Specification of the spelling of types. *)
Require Import Arith List Bool Ascii String.
Require Import Verif.Base Verif.SpellModel.
Import ListNotations.
Local Open Scope nat_scope.

Fixpoint join (sep : text) (l : list text) : text :=
  match l with
  | [] => []
  | [s] => s
  | s :: l => s ++ sep ++ join sep l
  end.

(** The text of a function: receiver, parameters, result. *)
Definition fnText (rcv : option text) (ps : list text) (res : option text) : text :=
  lit "fn (" ++ match rcv with Some s => s ++ lit ") (" | None => [] end ++
  join (lit ", ") ps ++ lit ")" ++
  match res with Some s => lit ": " ++ s | None => [] end.

(** What is written before the item type of a pointer, weak pointer, dynamic array. *)
Definition wordOf (r : refk) : text :=
  match r with RPtr => lit "^" | RWeak => lit "weak ^" | RDyn => lit "[]" end.

(** Results of these types are returned through a last parameter: all but numbers,
    pointers, functions, enumerations; the words say it themselves. *)
Definition composite (k : kind) : bool :=
  match k with
  | KWord _ _ s => s
  | KEnum _ | KFn _ _ _ | KRef RPtr _ | KRef RWeak _ => false
  | _ => true
  end.

Section Spells.
Variable h : list node.

(** The parameters that are written: all but the first, and but the last one if the
    result [r] is structured. *)
Definition written (ps : list nat) (r : node) : list nat :=
  if composite (nk r) then removelast (tl ps) else tl ps.

(** The type [i] is spelled as the text, up to the depth [d] of item types. *)
Inductive spells : nat -> nat -> text -> Prop :=
| sp_name d i n s : nth_error h i = Some n -> gname n = Some s -> spells d i s
| sp_word d i w v t : nth_error h i = Some (mkNode None (KWord w v t)) -> spells d i w
| sp_enum d i w : nth_error h i = Some (mkNode None (KEnum w)) ->
    spells d i (lit "enum(" ++ w ++ lit ")")
| sp_ref d i r j s : nth_error h i = Some (mkNode None (KRef r j)) -> items d j s ->
    spells d i (wordOf r ++ s)
| sp_arr d i m j s : nth_error h i = Some (mkNode None (KArr m j)) -> items d j s ->
    spells d i (lit "[" ++ dec m ++ lit "]" ++ s)
| sp_map d i k j t s : nth_error h i = Some (mkNode None (KMap k j)) ->
    spells (Nat.pred d) k t -> items d j s ->
    spells d i (lit "map[" ++ t ++ lit "]" ++ s)
| sp_struct d i : nth_error h i = Some (mkNode None (KExprList [])) ->
    spells d i (lit "struct")
| sp_list d i f fs ss : nth_error h i = Some (mkNode None (KExprList (f :: fs))) ->
    spellsAll (Nat.pred d) (f :: fs) ss ->
    spells d i (lit "{ " ++ List.concat (map (fun s => s ++ lit " ") ss) ++ lit "}")
| sp_fn d i m ps r s : nth_error h i = Some (mkNode None (KFn m ps r)) ->
    spellsFn d i s -> spells d i s
| sp_closure d i f s : nth_error h i = Some (mkNode None (KClosure f)) ->
    spellsFn d f s -> spells d i (s ++ lit " |...|")
(** An item type. *)
with items : nat -> nat -> text -> Prop :=
| it_end j : items 0 j (lit "...")
| it_more d j s : spells d j s -> items (S d) j s
with spellsAll : nat -> list nat -> list text -> Prop :=
| all_nil d : spellsAll d [] []
| all_cons d j js s ss : spells d j s -> spellsAll d js ss ->
    spellsAll d (j :: js) (s :: ss)
with spellsFn : nat -> nat -> text -> Prop :=
| fn_some d f g m p ps r n rs ss res :
    nth_error h f = Some (mkNode g (KFn m (p :: ps) r)) -> nth_error h r = Some n ->
    spellsRcv (Nat.pred d) m p rs -> spellsAll (Nat.pred d) (written (p :: ps) n) ss ->
    spellsRes (Nat.pred d) n r res ->
    spellsFn d f (fnText rs ss res)
with spellsRcv : nat -> bool -> nat -> option text -> Prop :=
| rcv_none d p : spellsRcv d false p None
| rcv_some d p s : spells d p s -> spellsRcv d true p (Some s)
with spellsRes : nat -> node -> nat -> option text -> Prop :=
| res_void d n r : isVoid (nk n) = true -> spellsRes d n r None
| res_some d n r s : isVoid (nk n) = false -> spells d r s -> spellsRes d n r (Some s).

(** [via d i d' j]: to spell [i] at depth [d], [j] is spelled at depth [d']. *)
Inductive viaFn : nat -> nat -> Prop :=
| vf_rcv f g p ps r : nth_error h f = Some (mkNode g (KFn true (p :: ps) r)) -> viaFn f p
| vf_par f g m ps r n j : nth_error h f = Some (mkNode g (KFn m ps r)) ->
    nth_error h r = Some n -> In j (written ps n) -> viaFn f j
| vf_res f g m ps r n : nth_error h f = Some (mkNode g (KFn m ps r)) ->
    nth_error h r = Some n -> isVoid (nk n) = false -> viaFn f r.

(** Types spelled at every depth: keys, parts of lists, parameters and results. *)
Inductive inner : nat -> nat -> Prop :=
| in_key i k j : nth_error h i = Some (mkNode None (KMap k j)) -> inner i k
| in_list i fs j : nth_error h i = Some (mkNode None (KExprList fs)) -> In j fs ->
    inner i j
| in_fn i m ps r j : nth_error h i = Some (mkNode None (KFn m ps r)) -> viaFn i j ->
    inner i j
| in_closure i f j : nth_error h i = Some (mkNode None (KClosure f)) -> viaFn f j ->
    inner i j.

Inductive itemOf : nat -> nat -> Prop :=
| io_ref i r j : nth_error h i = Some (mkNode None (KRef r j)) -> itemOf i j
| io_arr i m j : nth_error h i = Some (mkNode None (KArr m j)) -> itemOf i j
| io_map i k j : nth_error h i = Some (mkNode None (KMap k j)) -> itemOf i j.

(** A pointer or dynamic array is met whose item has too long a text. *)
Inductive overflows : nat -> nat -> Prop :=
| ov_here d i r j s : nth_error h i = Some (mkNode None (KRef r j)) -> spells d j s ->
    255 < List.length (wordOf r) + List.length s -> overflows (S d) i
| ov_inner d i j : inner i j -> overflows (Nat.pred d) j -> overflows d i
| ov_item d i j : itemOf i j -> overflows d j -> overflows (S d) i.

(** Graphs of types: all parts exist, functions have their first parameter, and the
    last one if the result is structured; texts have no zero bytes. *)
Definition clean (s : text) : Prop := ~ In NUL s.

Definition wfKind (k : kind) : Prop :=
  match k with
  | KWord w _ _ | KEnum w => clean w
  | KRef _ j | KArr _ j => j < List.length h
  | KMap k j => k < List.length h /\ j < List.length h
  | KExprList fs => forall j, In j fs -> j < List.length h
  | KFn _ ps r => (forall j, In j ps -> j < List.length h) /\ ps <> [] /\
      exists n, nth_error h r = Some n /\ (composite (nk n) = true -> tl ps <> [])
  | KClosure f => exists g m ps r, nth_error h f = Some (mkNode g (KFn m ps r))
  end.

Definition wf : Prop := forall i n, nth_error h i = Some n ->
  wfKind (nk n) /\ match gname n with Some s => clean s | None => True end.
End Spells.

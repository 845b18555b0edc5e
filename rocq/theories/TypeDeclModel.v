(** Model of type declarations and forward types.

    Modelled: parseTypeDecl, parseTypeDeclItem, parseTypeOrForwardType, parseType
    and the parsers of pointer, array, map, structure and closure types with their
    signatures (umka_decl.c:16-37, 80-106, 137-320, 376-437, 497-583), identAdd for
    types and identTryResolveForwardType (umka_ident.c:67-96, 148-168, 193-254),
    typeAdd, typeDeepCopy, typeEnableForward, typeAddField, typeSetBase
    (umka_types.c:114-171, 626-635, 665-735, umka_types.h:300-304, 420-442).

    Simplifications, stated once:
    - a type is a node of a list, a pointer to a type its position;
    - sizes are the subject of C22: here a forward type has none, every other type
      has one, and types that are too large are left out. Of the alignment it is
      kept whether it is positive;
    - no enumerations, interfaces and fibers; the keys of maps have a predeclared
      type; void is a plain type; parameters have no names, defaults and no
      variadic lists (these are dynamic arrays); a list of results is a structure;
    - the node of a structure is added after its fields: nothing refers to it before;
    - one module, and only types among the identifiers. *)
Require Import Arith List Bool.
Require Import Verif.Base.
Import ListNotations.
Local Open Scope nat_scope.

(** Predeclared types: plain ones, and strings. *)
Inductive base := BPlain (n : nat) | BStr.

(** Types as written (parseType, umka_decl.c:522-547). Predeclared types are names
    of an outer block. *)
Inductive texpr :=
| TName (x : nat)
| TPtr (e : texpr)
| TWeak (e : texpr)
| TArr (n : nat) (e : texpr)
| TDyn (e : texpr)
| TMap (e : texpr)
| TStruct (fs : flds)
| TFn (ps : tys) (r : texpr)
with flds := FNil | FCons (x : nat) (e : texpr) (fs : flds)
with tys := PNil | PCons (e : texpr) (ps : tys).

(** Kinds of types with their parts (umka_types.h:140-175). [KForward rbs]: rbs is
    resolveByStructured. [KFn ps r hr]: hr tells that there is a #result parameter. *)
Inductive kind :=
| KForward (rbs : bool)
| KBase (b : base)
| KPtr (i : nat)
| KWeak (i : nat)
| KArr (n : nat) (i : nat)
| KDyn (i : nat)
| KMap (i : nat)
| KStruct (fs : list (nat * nat))
| KFn (ps : list nat) (r : nat) (hr : bool).

(** Type: isGarbageCollected, whether the alignment is positive, typeIdent. *)
Record node := mkNode {
  nk : kind;
  ngc : bool;
  nal : bool;
  nid : option nat
}.

(** Identifiers, the latest first; the flag tells those of the current block. *)
Record ident := mkIdent {
  iname : nat;
  itype : nat;
  icur : bool
}.

Record st := mkSt {
  heap : list node;
  ids : list ident
}.

Definition isForward (k : kind) : bool :=
  match k with KForward _ => true | _ => false end.

(** typeStructured (umka_types.h:300). *)
Definition structured (k : kind) : bool :=
  match k with
  | KArr _ _ | KDyn _ | KMap _ | KStruct _ | KFn _ _ _ => true
  | _ => false
  end.

(** identFindEx (umka_ident.c:67-96). *)
Fixpoint findId (l : list ident) (x : nat) : option ident :=
  match l with
  | [] => None
  | d :: l => if Nat.eqb (iname d) x then Some d else findId l x
  end.

Fixpoint setNode (h : list node) (i : nat) (n : node) : list node :=
  match h, i with
  | [], _ => []
  | _ :: h, 0 => n :: h
  | m :: h, S i => m :: setNode h i n
  end.

(** typeAdd (umka_types.c:114-133). *)
Definition typeAdd (s : st) (n : node) : st * nat :=
  (mkSt (heap s ++ [n]) (ids s), List.length (heap s)).

(** typeHasPtr for a type without items (umka_types.c:298-317), as in typeAdd. *)
Definition plainGc (k : kind) : bool :=
  match k with
  | KBase BStr | KPtr _ | KDyn _ | KMap _ | KFn _ _ _ => true
  | _ => false
  end.

(** parseTypeOrForwardType (umka_decl.c:16-37): [r] is the outcome of parseType. *)
Definition orForward (s : st) (rbs : bool) (e : texpr) (r : outcome (st * nat))
  : outcome (st * nat) :=
  match e with
  | TName x =>
      match findId (ids s) x with
      | None =>
          let (s, i) := typeAdd s (mkNode (KForward rbs) false false (Some x)) in
          Ok (mkSt (heap s) (mkIdent x i true :: ids s), i)
      | Some _ => r
      end
  | _ => r
  end.

Definition ptrLike (k : nat -> kind) (r : outcome (st * nat)) : outcome (st * nat) :=
  let* (s, i) := r in
  Ok (typeAdd s (mkNode (k i) (plainGc (k i)) true None)).

Fixpoint parseType (s : st) (e : texpr) : outcome (st * nat) :=
  match e with
  | TName x =>
      match findId (ids s) x with
      | Some d => Ok (s, itype d)
      | None => Err EOther                       (* "Unknown identifier" *)
      end
  | TPtr e => ptrLike KPtr (orForward s false e (parseType s e))
  | TWeak e => ptrLike KWeak (orForward s false e (parseType s e))
  | TDyn e => ptrLike KDyn (orForward s false e (parseType s e))
  | TMap e => ptrLike KMap (orForward s false e (parseType s e))
  | TArr n e =>
      (* parseArrayType, typeSetBase, typeAssertResizeArray *)
      let* (s, i) := parseType s e in
      match nth_error (heap s) i with
      | None => UB
      | Some b =>
          if Nat.ltb 0 n && isForward (nk b) then Err EOther   (* "Illegal type" *)
          else Ok (typeAdd s (mkNode (KArr n i) (ngc b) (nal b) None))
      end
  | TStruct fs =>
      let* (s, fg) := parseFields s fs [] false in
      let (l, gc) := (fg : list (nat * nat) * bool) in
      Ok (typeAdd s (mkNode (KStruct l) gc true None))
  | TFn ps r =>
      (* parseClosureType, parseSignature *)
      let* (s, l) := parseParams s ps in
      let* (s, i) := orForward s true r (parseType s r) in
      match nth_error (heap s) i with
      | None => UB
      | Some b =>
          let k := KFn l i (structured (nk b) || isForward (nk b)) in
          Ok (typeAdd s (mkNode k (plainGc k) true None))
      end
  end
(** parseStructType and typeAddField: the fields so far, and whether one of them
    is garbage collected. *)
with parseFields (s : st) (fs : flds) (acc : list (nat * nat)) (gc : bool)
  : outcome (st * (list (nat * nat) * bool)) :=
  match fs with
  | FNil => Ok (s, (acc, gc))
  | FCons x e fs =>
      let* (s, i) := orForward s false e (parseType s e) in
      match nth_error (heap s) i with
      | None => UB
      | Some b =>
          if existsb (fun p => Nat.eqb (fst p) x) acc then Err EOther (* "Duplicate field" *)
          else if isForward (nk b) then Err EOther      (* "Unresolved forward type" *)
          else if negb (nal b) then Err EOther          (* "Illegal type" *)
          else parseFields s fs (acc ++ [(x, i)]) (gc || ngc b)
      end
  end
with parseParams (s : st) (ps : tys) : outcome (st * list nat) :=
  match ps with
  | PNil => Ok (s, [])
  | PCons e ps =>
      let* (s, i) := orForward s false e (parseType s e) in
      let* (s, l) := parseParams s ps in
      Ok (s, i :: l)
  end.

(** identAddType for a type declaration (umka_ident.c:148-168, 193-254): [t] is the
    new type, a copy of the one written. *)
Definition identAddType (s : st) (x : nat) (t : nat) : outcome st :=
  match nth_error (heap s) t with
  | None => UB
  | Some n =>
      match findId (ids s) x with
      | Some d =>
          if icur d then
            match nth_error (heap s) (itype d) with
            | None => UB
            | Some f =>
                match nk f with
                | KForward rbs =>
                    if isForward (nk n) then Err EOther
                    else if rbs && negb (structured (nk n)) then Err EOther
                    else Ok (mkSt (setNode (heap s) (itype d)
                                     (mkNode (nk n) (ngc n) (nal n) (Some x))) (ids s))
                | _ => Err EOther                (* "Duplicate identifier" *)
                end
            end
          else Ok (mkSt (heap s) (mkIdent x t true :: ids s))
      | None => Ok (mkSt (heap s) (mkIdent x t true :: ids s))
      end
  end.

(** parseTypeDeclItem (umka_decl.c:550-566): the copy has the name as its typeIdent. *)
Definition parseItem (s : st) (x : nat) (e : texpr) : outcome st :=
  let* (s, i) := parseType s e in
  match nth_error (heap s) i with
  | None => UB
  | Some n =>
      let (s, t) := typeAdd s (mkNode (nk n) (ngc n) (nal n) (Some x)) in
      identAddType s x t
  end.

Fixpoint parseItems (s : st) (ds : list (nat * texpr)) : outcome st :=
  match ds with
  | [] => Ok s
  | (x, e) :: ds => let* s := parseItem s x e in parseItems s ds
  end.

(** parseTypeDecl and typeEnableForward (umka_decl.c:568-586, umka_types.c:626). *)
Definition parseTypeDecl (s : st) (ds : list (nat * texpr)) : outcome st :=
  let* s := parseItems s ds in
  if existsb (fun n => isForward (nk n)) (heap s) then Err EOther else Ok s.

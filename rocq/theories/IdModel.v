(** Identifiers: the list of declarations, blocks and modules. *)
From Coq Require Import ZArith Lia Bool List String.
From Verif Require Import Base.
Import ListNotations.
Local Open Scope Z_scope.

(** src/umka_ident.h:9-16, IdentKind. *)
Inductive ikind : Type := IConst | IVar | IType | IBuiltin | IModule.
Definition ikind_eqb (a b : ikind) : bool :=
  match a, b with
  | IConst, IConst | IVar, IVar | IType, IType | IBuiltin, IBuiltin | IModule, IModule => true
  | _, _ => false
  end.

(** Names. src/umka_ident.c:14-17, identTempName: temporary names "#temp<n>" contain a character that no name in a source text
    contains; simplified to a constructor of their own. *)
Inductive name : Type := NUser (s : string) | NTemp (n : Z).
Definition name_eqb (a b : name) : bool :=
  match a, b with
  | NUser s, NUser t => String.eqb s t
  | NTemp m, NTemp n => m =? n
  | _, _ => false
  end.

(** What identifiers depend on in a type: forward types (and resolveByStructured), functions with the receiver's base type
    (given by the identity of its type identifier: typeCompatibleRcv, src/umka_types.h:355-358, compares just this) if they are
    methods, void, and others with typeStructured. [sig] stands for the rest of a function type. *)
Inductive ity : Type := TFwd (byStruct : bool) | TFn (rcv : option Z) (sig : nat) | TVoid | TOther (structured : bool).
Definition isFwd (t : ity) : bool := match t with TFwd _ => true | _ => false end.
Definition rcvOf (t : ity) : option Z := match t with TFn r _ => r | _ => None end.
Definition tstructured (t : ity) : bool := match t with TOther b => b | _ => false end.

(** src/umka_ident.h:19-46, struct Ident. [iid] stands for its address (user-declared identifiers have addresses from 0 on,
    temporary ones negative addresses); [iproto]: prototypeOffset >= 0; [ival]: moduleVal. Other fields are not represented. *)
Record ident : Type := { ik : ikind; inm : name; ityp : ity; imod : Z; iblk : Z; iexp : bool; iproto : bool; iid : Z; ival : Z }.

(** src/umka_common.h:104-116, struct Module: the path, isCompiled and the import aliases (pairs of module and alias). *)
Record module : Type := { mpath : string; mcompiled : bool; maliases : list (Z * string) }.

(** Idents, Blocks (src/umka_common.h:134-153: [items] is the stack of block numbers with "fn != NULL", top first) and Modules. *)
Record st : Type := { idents : list ident; temps : Z; nid : Z; items : list (Z * bool); numBlocks : Z; cur : Z; mods : list module }.

Definition with_idents (s : st) (l : list ident) : st :=
  {| idents := l; temps := temps s; nid := nid s; items := items s; numBlocks := numBlocks s; cur := cur s; mods := mods s |}.
Definition with_items (s : st) (l : list (Z * bool)) : st :=
  {| idents := idents s; temps := temps s; nid := nid s; items := l; numBlocks := numBlocks s; cur := cur s; mods := mods s |}.
Definition with_cur (s : st) (c : Z) : st :=
  {| idents := idents s; temps := temps s; nid := nid s; items := items s; numBlocks := numBlocks s; cur := c; mods := mods s |}.
Definition with_mods (s : st) (l : list module) : st :=
  {| idents := idents s; temps := temps s; nid := nid s; items := items s; numBlocks := numBlocks s; cur := cur s; mods := l |}.

(** src/umka_common.c:549-565, blocksCurrent; blocks->top == 0. *)
Definition curBlock (s : st) : Z := match items s with (b, _) :: _ => b | [] => -1 end.
Definition atTop (s : st) : bool := (List.length (items s) <=? 1)%nat.

Definition getMod (s : st) (m : Z) : option module := if m <? 0 then None else nth_error (mods s) (Z.to_nat m).
(** modules->module[m]->importAlias[j]. *)
Definition importAlias (s : st) (m j : Z) : option string :=
  match getMod s m with
  | Some x => option_map snd (List.find (fun a => fst a =? j) (maliases x))
  | None => None
  end.

(** src/umka_ident.c:75-77. *)
Definition identModuleValid (s : st) (m : Z) (rcv : option Z) (i : ident) : bool :=
  ((imod i =? 0) && (cur s =? m)) ||
  ((imod i =? m) && ((cur s =? m) ||
    (iexp i && (match rcv with Some _ => true | None => match importAlias s (cur s) (imod i) with Some _ => true | None => false end end)))).

(** src/umka_ident.c:82-84. *)
Definition found (rcv : option Z) (i : ident) : bool :=
  match rcv, rcvOf (ityp i) with
  | None, None => true
  | Some r, Some q => q =? r
  | _, _ => false
  end.

(** src/umka_ident.c:67-96, identFindEx (without marking identifiers as used). *)
Definition identFindEx (s : st) (m : Z) (nm : name) (rcv : option Z) (isModule : bool) : option ident :=
  List.find (fun i => Bool.eqb (ikind_eqb (ik i) IModule) isModule && name_eqb (inm i) nm && identModuleValid s m rcv i && found rcv i)
            (idents s).

(** src/umka_ident.c:129-145, identIsOuterLocalVar: the loop over the blocks, top first. *)
Fixpoint outerLoop (b : Z) (fnFound : bool) (l : list (Z * bool)) : bool :=
  match l with
  | [] => false
  | (c, fn) :: r => if (c =? b) && fnFound then true else outerLoop b (fnFound || fn) r
  end.
Definition identIsOuterLocalVar (s : st) (i : ident) : bool :=
  if negb (ikind_eqb (ik i) IVar) || (iblk i =? 0) then false else outerLoop (iblk i) false (items s).

(** Assignments through a pointer to an identifier. *)
Definition updIdent (id : Z) (f : ident -> ident) (l : list ident) : list ident :=
  map (fun i => if iid i =? id then f i else i) l.

Section ENV.
  (** typeCompatible on function types (C25). *)
  Variable compatFn : nat -> nat -> bool.
  (** moduleNameFromPath and the check for blanks in moduleAdd (src/umka_common.c:243-264, 293-299); see C48. *)
  Variable nameOf : string -> option string.

  (** src/umka_ident.c:148-168, identTryResolveForwardType. The name of the forward type's identifier is the name of the
      existing identifier, by which it has been found. *)
  Definition tryResolveForwardType (s : st) (e : ident) (k : ikind) (t : ity) (exported : bool) : option (outcome st) :=
    match ik e, ityp e, k with
    | IType, TFwd byStruct, IType =>
        if isFwd t then None
        else if byStruct && negb (tstructured t) then Some (Err EIllegalType)
        else Some (Ok (with_idents s (updIdent (iid e) (fun i =>
               {| ik := ik i; inm := inm i; ityp := t; imod := imod i; iblk := iblk i; iexp := exported; iproto := iproto i; iid := iid i; ival := ival i |})
               (idents s))))
    | _, _, _ => None
    end.

  (** src/umka_ident.c:171-188, identTryResolveFnPrototype. Both are methods with the same receiver or no methods, as the
      existing identifier has been found by the new one's receiver. *)
  Definition tryResolveFnPrototype (s : st) (e : ident) (k : ikind) (t : ity) (exported : bool) : option st :=
    match ik e, ityp e, k, t with
    | IConst, TFn _ g, IConst, TFn _ h =>
        if Bool.eqb (iexp e) exported && compatFn g h && iproto e then
          Some (with_idents s (updIdent (iid e) (fun i =>
            {| ik := ik i; inm := inm i; ityp := t; imod := imod i; iblk := iblk i; iexp := iexp i; iproto := iproto i; iid := iid i; ival := ival i |})
            (idents s)))
        else None
    | _, _, _, _ => None
    end.

  (** src/umka_ident.c:191-252, identAdd. The result is the state and the identifier's address. [nid] and [temps] are the
      addresses of new identifiers. Warnings are not modelled. *)
  Definition identAdd (s : st) (k : ikind) (nm : name) (t : ity) (exported : bool) (val : Z) : outcome (st * Z) :=
    let add :=
      if exported && negb (atTop s) then Err ESyntax else
      if (match k with IConst | IVar => true | _ => false end) && isFwd t then Err EIllegalType else
      if (match k with IConst | IVar => true | _ => false end) && (match t with TVoid => true | _ => false end) then Err EIllegalType else
      let id := match nm with NUser _ => nid s | NTemp n => - (n + 1) end in
      let i := {| ik := k; inm := nm; ityp := t; imod := cur s; iblk := curBlock s; iexp := exported; iproto := false; iid := id; ival := val |} in
      Ok ({| idents := i :: idents s; temps := temps s; nid := (match nm with NUser _ => nid s + 1 | NTemp _ => nid s end);
             items := items s; numBlocks := numBlocks s; cur := cur s; mods := mods s |}, id) in
    match identFindEx s (cur s) nm (rcvOf t) (ikind_eqb k IModule) with
    | Some e =>
        if iblk e =? curBlock s then
          match tryResolveForwardType s e k t exported with
          | Some r => let* s1 := r in Ok (s1, iid e)
          | None =>
              match tryResolveFnPrototype s e k t exported with
              | Some s1 => Ok (s1, iid e)
              | None => Err EDuplicate
              end
          end
        else add
    | None => add
    end.

  (** src/umka_ident.c:263-271 and 352-368, identAddTempConst and identAllocTempVar. tempVarNameSuffix++ is undefined at
      INT_MAX. *)
  Definition identAddTemp (s : st) (k : ikind) (t : ity) : outcome st :=
    if temps s =? INT_MAX then UB else
    let s1 := {| idents := idents s; temps := temps s + 1; nid := nid s; items := items s; numBlocks := numBlocks s; cur := cur s; mods := mods s |} in
    let* x := identAdd s1 k (NTemp (temps s)) t false 0 in Ok (fst x).

  (** src/umka_ident.c:31-45, identFree. *)
  Fixpoint identFree (l : list ident) (b : Z) : list ident :=
    match l with
    | [] => []
    | i :: r => if iblk i =? b then identFree r b else l
    end.

  (** src/umka_ident.c:48-64, identMoveBefore. [next]: the address, or nothing for NULL. *)
  Fixpoint insBefore (moved : ident) (l : list ident) (next : option Z) : option (list ident) :=
    match l with
    | [] => match next with None => Some [moved] | Some _ => None end
    | i :: r => if match next with Some n => iid i =? n | None => false end then Some (moved :: l)
                else option_map (cons i) (insBefore moved r next)
    end.
  Definition identMoveBefore (l : list ident) (next : option Z) : list ident :=
    match l with
    | [] => []
    | i :: r => match insBefore i r next with Some l1 => l1 | None => l end
    end.

  (** src/umka_common.c:528-545, blocksEnterFn and blocksEnter. MAX_BLOCK_NESTING = 100; numBlocks++ is undefined at INT_MAX. *)
  Definition blocksEnterFn (s : st) (fn : bool) : outcome st :=
    if (100 <=? List.length (items s))%nat then Err ETooMany else
    if numBlocks s =? INT_MAX then UB else
    Ok {| idents := idents s; temps := temps s; nid := nid s; items := (numBlocks s, fn) :: items s; numBlocks := numBlocks s + 1;
          cur := cur s; mods := mods s |}.
  (** src/umka_common.c:548-553, blocksLeave. *)
  Definition blocksLeave (s : st) : outcome st :=
    if atTop s then Err EOther else Ok (with_items s (tl (items s))).
  (** src/umka_common.c:556-559, blocksReenter: the slot above the top still holds the block just left. *)
  Definition blocksReenter (s : st) (slot : Z * bool) : st := with_items s (slot :: items s).
  (** identFree(&idents, blocksCurrent(&blocks)); blocksLeave(&blocks), e.g. src/umka_stmt.c:526-527. *)
  Definition closeBlock (s : st) : outcome st := blocksLeave (with_idents s (identFree (idents s) (curBlock s))).

  (** src/umka_common.c:267-273, moduleFind. *)
  Fixpoint moduleFindFrom (l : list module) (n : Z) (path : string) : option Z :=
    match l with
    | [] => None
    | x :: r => if String.eqb (mpath x) path then Some n else moduleFindFrom r (n + 1) path
    end.
  Definition moduleFind (s : st) (path : string) : option Z := moduleFindFrom (mods s) 0 path.
  (** src/umka_common.c:276-285, moduleFindImported: whether a module has the alias in the current one. *)
  Definition moduleFindImported (s : st) (alias : string) : bool :=
    match getMod s (cur s) with
    | Some x => existsb (fun a => String.eqb (snd a) alias) (maliases x)
    | None => false
    end.
  (** src/umka_common.c:288-342, moduleAdd. MAX_MODULES = 1024. Implementation libraries are not modelled. *)
  Definition moduleAdd (s : st) (path : string) : outcome (st * Z) :=
    if (1024 <=? List.length (mods s))%nat then Err ETooMany else
    match nameOf path with
    | None => Err ESyntax
    | Some nm =>
        match moduleFind s path with
        | Some _ => Err EDuplicate
        | None => let n := Z.of_nat (List.length (mods s)) in
                  Ok (with_mods s (mods s ++ [{| mpath := path; mcompiled := false; maliases := [(n, nm)] |}]), n)
        end
    end.
  Fixpoint updNth {A} (l : list A) (n : nat) (f : A -> A) : list A :=
    match l, n with
    | [], _ => []
    | x :: r, O => f x :: r
    | x :: r, S m => x :: updNth r m f
    end.
  Definition updMod (s : st) (m : Z) (f : module -> module) : st := with_mods s (updNth (mods s) (Z.to_nat m) f).

  (** The parser as seen by the identifiers: a tree of the calls it makes.
      [CDecl]: a declaration (umka_decl.c:559, 614, 653; umka_stmt.c:324 and others; umka_ident.c:371 for parameters);
      [CFn]: the head of a function declaration or prototype (umka_decl.c:728-763), the body is a [CBlock true];
      [CTemp]: a temporary variable or constant; [CShort]: one name of a short variable declaration (umka_stmt.c:353-367);
      [CTypes]: a type declaration (umka_decl.c:563-584), in which [CTypeRef] is a reference that may be forward (umka_decl.c:16-36);
      [CFind]: a possibly qualified name (umka_expr.c:800-825); [CMethod]: a method of a type of module m (umka_expr.c:2589);
      [CGetFunc]: a name in module m looked up by the host (umka_compiler.c:336);
      [CBlock]: a block; [CTern]: a ternary operator whose result is of garbage collected type t, if any (umka_expr.c:3107-3158);
      [CImport]: an import item (umka_decl.c:801-879), with the text of the module in case it has not been compiled before. *)
  Inductive cmd : Type :=
  | CSkip
  | CSeq (a b : cmd)
  | CDecl (k : ikind) (nm : string) (t : ity) (exported : bool)
  | CFn (nm : string) (rcv : option Z) (sig : nat) (exported proto : bool)
  | CTemp (isConst : bool) (t : ity)
  | CShort (nm : string) (t : ity) (exported : bool)
  | CTypes (a : cmd)
  | CTypeRef (nm : string) (byStruct : bool)
  | CFind (q : option string) (nm : string)
  | CMethod (m : Z) (nm : string) (rcv : Z)
  | CGetFunc (m : Z) (nm : string)
  | CBlock (fn : bool) (a : cmd)
  | CTern (t : option ity) (a b : cmd)
  | CImport (path : string) (alias : option string) (body : cmd).

  (** What a lookup gives: nothing, or the identity of the declaration and whether it is a local variable of an enclosing
      function (which must be captured). *)
  Definition res : Type := option (Z * bool).
  Definition resOf (s : st) (r : option ident) : res := option_map (fun i => (iid i, identIsOuterLocalVar s i)) r.

  (** src/umka_expr.c:800-825, parseQualIdent. Nothing: the errors "Unknown module" and "Unknown identifier". *)
  Definition qualFind (s : st) (q : option string) (nm : string) : option ident :=
    match q with
    | None => identFindEx s (cur s) (NUser nm) None false
    | Some al => match identFindEx s (cur s) (NUser al) None true with
                 | Some mi => identFindEx s (ival mi) (NUser nm) None false
                 | None => None
                 end
    end.

  (** src/umka_decl.c:801-879, parseImportItem, after the module has been found or compiled. *)
  Definition importModule (s : st) (m : Z) (alias path : string) : outcome st :=
    match getMod s m with
    | None => UB
    | Some x =>
        if negb (mcompiled x) then Err ESyntax else
        match importAlias s (cur s) m with
        | Some _ => Err EDuplicate
        | None =>
            let s1 := updMod s (cur s) (fun y => {| mpath := mpath y; mcompiled := mcompiled y; maliases := maliases y ++ [(m, alias)] |}) in
            let* x := identAdd s1 IModule (NUser alias) TVoid false m in Ok (fst x)
        end
    end.

  Fixpoint exec (c : cmd) (s : st) {struct c} : outcome (st * list res) :=
    match c with
    | CSkip => Ok (s, [])
    | CSeq a b =>
        let* x := exec a s in
        let* y := exec b (fst x) in
        Ok (fst y, snd x ++ snd y)
    | CDecl k nm t exported => let* x := identAdd s k (NUser nm) t exported 0 in Ok (fst x, [])
    | CFn nm rcv sig exported proto =>
        if negb (atTop s) then Err ESyntax else
        let* x := identAdd s IConst (NUser nm) (TFn rcv sig) exported 0 in
        Ok (with_idents (fst x) (updIdent (snd x) (fun i =>
              {| ik := ik i; inm := inm i; ityp := ityp i; imod := imod i; iblk := iblk i; iexp := iexp i; iproto := proto; iid := iid i; ival := ival i |})
              (idents (fst x))), [])
    | CTemp isConst t => let* s1 := identAddTemp s (if isConst then IConst else IVar) t in Ok (s1, [])
    | CShort nm t exported =>
        match identFindEx s (cur s) (NUser nm) None false with
        | Some i => if ikind_eqb (ik i) IVar && (iblk i =? curBlock s) then Ok (s, [Some (iid i, false)])
                    else let* x := identAdd s IVar (NUser nm) t exported 0 in Ok (fst x, [])
        | None => let* x := identAdd s IVar (NUser nm) t exported 0 in Ok (fst x, [])
        end
    | CTypes a =>
        let* x := exec a s in
        if existsb (fun i => isFwd (ityp i)) (idents (fst x)) then Err ESyntax else Ok x
    | CTypeRef nm byStruct =>
        match identFindEx s (cur s) (NUser nm) None false with
        | Some i => Ok (s, [Some (iid i, identIsOuterLocalVar s i)])
        | None => let* x := identAdd s IType (NUser nm) (TFwd byStruct) false 0 in Ok (fst x, [None])
        end
    | CFind q nm => Ok (s, [resOf s (qualFind s q nm)])
    | CMethod m nm rcv => Ok (s, [resOf s (identFindEx s m (NUser nm) (Some rcv) false)])
    | CGetFunc m nm => Ok (s, [resOf s (identFindEx s m (NUser nm) None false)])
    | CBlock fn a =>
        let* s1 := blocksEnterFn s fn in
        let* x := exec a s1 in
        let* s2 := closeBlock (fst x) in
        Ok (s2, snd x)
    | CTern t a b =>
        let next := match idents s with i :: _ => Some (iid i) | [] => None end in
        let* s1 := blocksEnterFn s false in
        let* x := exec a s1 in
        let* s3 := match t with
                   | None => Ok (fst x)
                   | Some ty =>
                       match items (fst x) with
                       | [] => UB
                       | slot :: _ =>
                           let* s2 := blocksLeave (fst x) in
                           let* s3 := identAddTemp s2 IVar ty in
                           Ok (blocksReenter (with_idents s3 (identMoveBefore (idents s3) next)) slot)
                       end
                   end in
        let* s4 := closeBlock s3 in
        let* s5 := blocksEnterFn s4 false in
        let* y := exec b s5 in
        let* s6 := closeBlock (fst y) in
        Ok (s6, snd x ++ snd y)
    | CImport path alias body =>
        match (match alias with Some a => Some a | None => nameOf path end) with
        | None => Err ESyntax
        | Some al =>
            if moduleFindImported s al then Err EDuplicate else
            match moduleFind s path with
            | Some m => let* s1 := importModule s m al path in Ok (s1, [])
            | None =>
                let* x := moduleAdd s path in
                let* y := exec body (with_cur (fst x) (snd x)) in
                let s1 := updMod (fst y) (snd x) (fun z => {| mpath := mpath z; mcompiled := true; maliases := maliases z |}) in
                let* s2 := importModule (with_cur s1 (cur s)) (snd x) al path in
                Ok (s2, snd y)
            end
        end
    end.

  (** src/umka_common.c:517-525, blocksInit, src/umka_ident.c:20-28, identInit, and src/umka_compiler.c:225: the module of the
      predeclared identifiers. *)
  Definition init : st :=
    {| idents := []; temps := 0; nid := 0; items := [(0, false)]; numBlocks := 1; cur := 0;
       mods := [{| mpath := "#universe"; mcompiled := false; maliases := [(0, "#universe"%string)] |}] |}.

  (** src/umka_compiler.c:225-250 and src/umka_decl.c:902-916: the predeclared identifiers [u] (kind, name and type; all at the
      top level), then the main module. *)
  Fixpoint declareAll (u : list (ikind * string * ity * bool)) (s : st) : outcome st :=
    match u with
    | [] => Ok s
    | (k, nm, t, e) :: r => let* x := identAdd s k (NUser nm) t e 0 in declareAll r (fst x)
    end.
  Definition compile (u : list (ikind * string * ity * bool)) (path : string) (body : cmd) : outcome (st * list res) :=
    let* s := declareAll u init in
    let* x := moduleAdd s path in
    exec body (with_cur (fst x) (snd x)).
End ENV.

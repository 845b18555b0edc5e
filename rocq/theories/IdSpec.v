(** Specification of names: a stack of scopes, each a list of declarations; temporaries do not exist here. *)
From Coq Require Import ZArith Lia Bool List String.
From Verif Require Import Base IdModel.
Import ListNotations.
Local Open Scope Z_scope.

(** A declaration. [dopen]: a type named before its declaration, or a function prototype; it may be completed. [did]: which
    declaration it is (they are numbered). [dval]: for the name of an imported module, that module. *)
Record decl : Type := { dk : ikind; dnm : string; dty : ity; dmod : Z; dexp : bool; dopen : bool; did : Z; dval : Z }.

(** Scopes, innermost first, with a mark for the outermost scope of a function. Modules are numbered in the order of their
    first import; 0 has the predeclared names. [imps]: (importing module, alias, imported module). *)
Record ast : Type := { scopes : list (bool * list decl); anid : Z; acur : Z; paths : list string; done : list Z; imps : list (Z * string * Z) }.

Definition with_scopes (a : ast) (l : list (bool * list decl)) : ast :=
  {| scopes := l; anid := anid a; acur := acur a; paths := paths a; done := done a; imps := imps a |}.
Definition with_acur (a : ast) (m : Z) : ast :=
  {| scopes := scopes a; anid := anid a; acur := m; paths := paths a; done := done a; imps := imps a |}.

(** A query: a name (of a module or of something else), sought in module [m], as a method of receiver [r] or not as a method. *)
Record query : Type := { qm : Z; qnm : string; qrcv : option Z; qmodule : bool }.

Definition imported (a : ast) (m j : Z) : Prop := exists al, In (m, al, j) (imps a).

(** Visible: predeclared names and names of the current module when looked up from it; exported names of imported modules;
    exported methods of any module. *)
Inductive visible (a : ast) (q : query) (d : decl) : Prop :=
| VUniverse : dmod d = 0 -> qm q = acur a -> visible a q d
| VOwn : dmod d = acur a -> qm q = acur a -> visible a q d
| VImported : dmod d = qm q -> dexp d = true -> qrcv q = None -> imported a (acur a) (qm q) -> visible a q d
| VMethod : dmod d = qm q -> dexp d = true -> qrcv q <> None -> visible a q d.

Definition answers (a : ast) (q : query) (d : decl) : Prop :=
  dnm d = qnm q /\ (dk d = IModule <-> qmodule q = true) /\ rcvOf (dty d) = qrcv q /\ visible a q d.

(** [denotes a q n d]: d is declared in the n-th scope from inside, and no scope further inside has an answer. *)
Definition scope (a : ast) (n : nat) : list decl := match nth_error (scopes a) n with Some s => snd s | None => [] end.
Definition denotes (a : ast) (q : query) (n : nat) (d : decl) : Prop :=
  In d (scope a n) /\ answers a q d /\ forall m e, (m < n)%nat -> In e (scope a m) -> ~ answers a q e.

(** No two declarations of one scope can be confused: same name, same kind of name (module or not), same receiver, and the same
    module, or one of them predeclared. *)
Definition clash (d e : decl) : Prop :=
  dnm d = dnm e /\ (dk d = IModule <-> dk e = IModule) /\ rcvOf (dty d) = rcvOf (dty e) /\ (dmod d = dmod e \/ dmod d = 0 \/ dmod e = 0).
Definition unambiguous (a : ast) : Prop :=
  Forall (fun s => ForallOrdPairs (fun d e => ~ clash d e) (snd s)) (scopes a).

(** ** The meaning of a program, computed *)

Definition importedb (a : ast) (m j : Z) : bool := existsb (fun x => (fst (fst x) =? m) && (snd x =? j)) (imps a).
Definition visibleb (a : ast) (q : query) (d : decl) : bool :=
  ((dmod d =? 0) && (qm q =? acur a)) || ((dmod d =? acur a) && (qm q =? acur a)) ||
  ((dmod d =? qm q) && dexp d && match qrcv q with None => importedb a (acur a) (qm q) | Some _ => true end).
Definition rcv_eqb (x y : option Z) : bool :=
  match x, y with None, None => true | Some i, Some j => i =? j | _, _ => false end.
Definition answersb (a : ast) (q : query) (d : decl) : bool :=
  String.eqb (dnm d) (qnm q) && Bool.eqb (ikind_eqb (dk d) IModule) (qmodule q) && rcv_eqb (rcvOf (dty d)) (qrcv q) && visibleb a q d.

Fixpoint lookupFrom (a : ast) (q : query) (n : nat) (l : list (bool * list decl)) : option (nat * decl) :=
  match l with
  | [] => None
  | (_, ds) :: r => match List.find (answersb a q) ds with Some d => Some (n, d) | None => lookupFrom a q (S n) r end
  end.
Definition lookup (a : ast) (q : query) : option (nat * decl) := lookupFrom a q 0 (scopes a).

(** A local variable of an enclosing function: declared neither at the top level nor within the innermost function. *)
Definition outerVar (a : ast) (n : nat) (d : decl) : bool :=
  ikind_eqb (dk d) IVar && (S n <? List.length (scopes a))%nat && existsb fst (firstn n (scopes a)).
Definition ares (a : ast) (r : option (nat * decl)) : res := option_map (fun x => (did (snd x), outerVar a (fst x) (snd x))) r.

Section ENV.
  Variable compatFn : nat -> nat -> bool.
  Variable nameOf : string -> option string.

  (** Completion of a declaration by a later one of the same scope. *)
  Definition completes (d : decl) (k : ikind) (t : ity) (exported : bool) : outcome decl :=
    match dopen d, dk d, k, dty d, t with
    | true, IType, IType, TFwd byStruct, (TVoid | TOther _) =>
        if byStruct && negb (tstructured t) then Err EIllegalType
        else Ok {| dk := IType; dnm := dnm d; dty := t; dmod := dmod d; dexp := exported; dopen := false; did := did d; dval := dval d |}
    | true, IConst, IConst, TFn _ g, TFn _ h =>
        if Bool.eqb (dexp d) exported && compatFn g h
        then Ok {| dk := IConst; dnm := dnm d; dty := t; dmod := dmod d; dexp := exported; dopen := true; did := did d; dval := dval d |}
        else Err EDuplicate
    | _, _, _, _, _ => Err EDuplicate
    end.

  Definition allowed (a : ast) (k : ikind) (t : ity) (exported : bool) : outcome unit :=
    if exported && (1 <? List.length (scopes a))%nat then Err ESyntax else
    match k, t with
    | (IConst | IVar), TFwd _ => Err EIllegalType
    | (IConst | IVar), TVoid => Err EIllegalType
    | _, _ => Ok tt
    end.

  (** A declaration: unless it completes one, no declaration of the innermost scope may answer to its name. *)
  Definition replace (d : decl) (l : list decl) : list decl := map (fun e => if did e =? did d then d else e) l.
  Definition declare (a : ast) (k : ikind) (nm : string) (t : ity) (exported isOpen : bool) (val : Z) : outcome (ast * Z) :=
    match scopes a with
    | [] => UB
    | (fn, ds) :: r =>
        match List.find (answersb a {| qm := acur a; qnm := nm; qrcv := rcvOf t; qmodule := ikind_eqb k IModule |}) ds with
        | Some d => let* e := completes d k t exported in Ok (with_scopes a ((fn, replace e ds) :: r), did d)
        | None =>
            let* _ := allowed a k t exported in
            let d := {| dk := k; dnm := nm; dty := t; dmod := acur a; dexp := exported; dopen := isOpen; did := anid a; dval := val |} in
            Ok ({| scopes := (fn, d :: ds) :: r; anid := anid a + 1; acur := acur a; paths := paths a; done := done a; imps := imps a |}, anid a)
        end
    end.

  (** Sets whether declaration [id] of the innermost scope is open. *)
  Definition setOpen (a : ast) (id : Z) (o : bool) : ast :=
    match scopes a with
    | [] => a
    | (fn, ds) :: r => with_scopes a ((fn, map (fun d => if did d =? id then
        {| dk := dk d; dnm := dnm d; dty := dty d; dmod := dmod d; dexp := dexp d; dopen := o; did := did d; dval := dval d |} else d) ds) :: r)
    end.

  Definition push (a : ast) (fn : bool) : outcome ast :=
    if (100 <=? List.length (scopes a))%nat then Err ETooMany else Ok (with_scopes a ((fn, []) :: scopes a)).
  Definition pop (a : ast) : ast := with_scopes a (tl (scopes a)).

  Fixpoint indexFrom (l : list string) (n : Z) (p : string) : option Z :=
    match l with [] => None | x :: r => if String.eqb x p then Some n else indexFrom r (n + 1) p end.

  Definition addModule (a : ast) (path : string) : outcome (ast * Z) :=
    if (1024 <=? List.length (paths a))%nat then Err ETooMany else
    match nameOf path with
    | None => Err ESyntax
    | Some nm =>
        match indexFrom (paths a) 0 path with
        | Some _ => Err EDuplicate
        | None => let n := Z.of_nat (List.length (paths a)) in
                  Ok ({| scopes := scopes a; anid := anid a; acur := acur a; paths := paths a ++ [path]; done := done a;
                         imps := (n, nm, n) :: imps a |}, n)
        end
    end.
  Definition import (a : ast) (m : Z) (alias : string) : outcome ast :=
    if negb (existsb (Z.eqb m) (done a)) then Err ESyntax else
    if importedb a (acur a) m then Err EDuplicate else
    let* x := declare {| scopes := scopes a; anid := anid a; acur := acur a; paths := paths a; done := done a;
                         imps := (acur a, alias, m) :: imps a |} IModule alias TVoid false false m in
    Ok (fst x).

  Definition afind (a : ast) (q : option string) (nm : string) : option (nat * decl) :=
    match q with
    | None => lookup a {| qm := acur a; qnm := nm; qrcv := None; qmodule := false |}
    | Some al => match lookup a {| qm := acur a; qnm := al; qrcv := None; qmodule := true |} with
                 | Some (_, d) => lookup a {| qm := dval d; qnm := nm; qrcv := None; qmodule := false |}
                 | None => None
                 end
    end.

  Definition tempOk (t : ity) : outcome unit :=
    match t with TFwd _ | TVoid => Err EIllegalType | _ => Ok tt end.

  Fixpoint sem (c : cmd) (a : ast) {struct c} : outcome (ast * list res) :=
    match c with
    | CSkip => Ok (a, [])
    | CSeq c1 c2 =>
        let* x := sem c1 a in
        let* y := sem c2 (fst x) in
        Ok (fst y, snd x ++ snd y)
    | CDecl k nm t exported => let* x := declare a k nm t exported false 0 in Ok (fst x, [])
    | CFn nm rcv sig exported proto =>
        if (1 <? List.length (scopes a))%nat then Err ESyntax else
        let* x := declare a IConst nm (TFn rcv sig) exported false 0 in
        Ok (setOpen (fst x) (snd x) proto, [])
    | CTemp _ t => let* _ := tempOk t in Ok (a, [])
    | CShort nm t exported =>
        match lookup a {| qm := acur a; qnm := nm; qrcv := None; qmodule := false |} with
        | Some (O, d) => if ikind_eqb (dk d) IVar then Ok (a, [Some (did d, false)])
                         else let* x := declare a IVar nm t exported false 0 in Ok (fst x, [])
        | _ => let* x := declare a IVar nm t exported false 0 in Ok (fst x, [])
        end
    | CTypes c1 =>
        let* x := sem c1 a in
        if existsb (fun s => existsb (fun d => isFwd (dty d)) (snd s)) (scopes (fst x)) then Err ESyntax else Ok x
    | CTypeRef nm byStruct =>
        match lookup a {| qm := acur a; qnm := nm; qrcv := None; qmodule := false |} with
        | Some x => Ok (a, [ares a (Some x)])
        | None => let* x := declare a IType nm (TFwd byStruct) false true 0 in Ok (fst x, [None])
        end
    | CFind q nm => Ok (a, [ares a (afind a q nm)])
    | CMethod m nm rcv => Ok (a, [ares a (lookup a {| qm := m; qnm := nm; qrcv := Some rcv; qmodule := false |})])
    | CGetFunc m nm => Ok (a, [ares a (lookup a {| qm := m; qnm := nm; qrcv := None; qmodule := false |})])
    | CBlock fn c1 =>
        let* a1 := push a fn in
        let* x := sem c1 a1 in
        Ok (pop (fst x), snd x)
    | CTern t c1 c2 =>
        let* a1 := push a false in
        let* x := sem c1 a1 in
        let* _ := match t with Some ty => tempOk ty | None => Ok tt end in
        let* a2 := push (pop (fst x)) false in
        let* y := sem c2 a2 in
        Ok (pop (fst y), snd x ++ snd y)
    | CImport path alias body =>
        match (match alias with Some al => Some al | None => nameOf path end) with
        | None => Err ESyntax
        | Some al =>
            if existsb (fun x => (fst (fst x) =? acur a) && String.eqb (snd (fst x)) al) (imps a) then Err EDuplicate else
            match indexFrom (paths a) 0 path with
            | Some m => let* a1 := import a m al in Ok (a1, [])
            | None =>
                let* x := addModule a path in
                let* y := sem body (with_acur (fst x) (snd x)) in
                let b := {| scopes := scopes (fst y); anid := anid (fst y); acur := acur a; paths := paths (fst y);
                            done := snd x :: done (fst y); imps := imps (fst y) |} in
                let* a2 := import b (snd x) al in
                Ok (a2, snd y)
            end
        end
    end.

  Definition ainit : ast :=
    {| scopes := [(false, [])]; anid := 0; acur := 0; paths := ["#universe"%string]; done := []; imps := [(0, "#universe"%string, 0)] |}.

  Fixpoint declareAll (u : list (ikind * string * ity * bool)) (a : ast) : outcome ast :=
    match u with
    | [] => Ok a
    | (k, nm, t, e) :: r => let* x := declare a k nm t e false 0 in declareAll r (fst x)
    end.
  Definition meaning (u : list (ikind * string * ity * bool)) (path : string) (body : cmd) : outcome (ast * list res) :=
    let* a := declareAll u ainit in
    let* x := addModule a path in
    sem body (with_acur (fst x) (snd x)).
End ENV.

(** Programs in which no type is declared as another name of a type that has not yet been declared (see C37_refuted); no
    variable or constant has such a type anyway. No type has kind TYPE_FN (functions as values are closures). *)
Definition plainType (k : ikind) (t : ity) : bool :=
  match t with TFwd _ => false | TFn _ _ => negb (ikind_eqb k IType) | _ => true end.
Fixpoint plain (c : cmd) : bool :=
  match c with
  | CDecl k _ t _ => plainType k t
  | CShort _ t _ => plainType IVar t
  | CSeq a b | CTern _ a b => plain a && plain b
  | CTypes a | CBlock _ a | CImport _ _ a => plain a
  | _ => true
  end.
(** Blocks entered and temporaries created. *)
Fixpoint blocksOf (c : cmd) : Z :=
  match c with
  | CTemp _ _ => 1
  | CSeq a b => blocksOf a + blocksOf b
  | CTern _ a b => 2 + blocksOf a + blocksOf b
  | CBlock _ a => 1 + blocksOf a
  | CTypes a | CImport _ _ a => blocksOf a
  | _ => 0
  end.

(** Model of function declarations: prototypes, bodies, external functions.

    Modelled: parseFnDecl (umka_decl.c:728-764), parseFnPrototype and the entry
    point in parseFnBlock (umka_stmt.c:1275-1388), identAdd and
    identTryResolveFnPrototype (umka_ident.c:171-254), doResolveExtern
    (umka_stmt.c:64-125), genNop, genEntryPoint, genCall (umka_gen.c), parseModule
    and the frame of parseProgram (umka_decl.c:901-939).

    Simplifications, stated once:
    - one module; its declarations other than functions are left out;
    - a body is the list of functions it uses: the instructions between the calls,
      the frame and the parameters are the subject of C36, C57 and C62. A use as a
      value pushes the same entry point as a call (doPushConst, umka_expr.c:19);
    - a signature is a number, and typeCompatible is equality of these;
    - the name of a function includes its receiver, if any ([fid]). *)
Require Import Arith List Bool.
Require Import Verif.Base.
Import ListNotations.
Local Open Scope nat_scope.

(** The name of a function: its bare name and its receiver. *)
Record fid := mkFid { bare : nat; rcv : option nat }.

Definition fidEqb (a b : fid) : bool :=
  Nat.eqb (bare a) (bare b) &&
  match rcv a, rcv b with
  | None, None => true
  | Some x, Some y => Nat.eqb x y
  | _, _ => false
  end.

(** A declaration: [fn name sig { ... }] or [fn name sig]. *)
Record decl := mkDecl {
  did : fid;
  dty : nat;
  dexp : bool;
  dbody : option (list fid)
}.

(** Instructions. [IEnter d] begins the body of declaration number [d]; [IExt x]
    is OP_CALL_EXTERN with the C function [x]. *)
Inductive instr :=
| INop
| IGoto (n : nat)
| IEnter (d : nat)
| ICall (n : nat)
| IExt (x : nat)
| IRet
| IHalt.

(** Ident (umka_ident.h:19-38): [ientry] is its constant, the code offset;
    [iproto] its prototypeOffset, None for -1. *)
Record ident := mkIdent {
  iid : fid;
  ity : nat;
  iexp : bool;
  ientry : nat;
  iproto : option nat
}.

(** The compiler: identifiers, the latest first (umka_ident.c:248), and code. *)
Record cst := mkCst {
  idents : list ident;
  code : list instr
}.

(** External functions: those given by the host or the runtime library, with
    whether this module may use them (umka_stmt.c:81), and those of the
    implementation library of the module (umka_stmt.c:88). *)
Record host := mkHost {
  extern : nat -> option nat;
  mayUse : nat -> bool;
  implLib : nat -> option nat
}.

(** identFindEx (umka_ident.c:67-96), for functions of one module. *)
Fixpoint findIn (l : list ident) (f : fid) : option ident :=
  match l with
  | [] => None
  | i :: l => if fidEqb (iid i) f then Some i else findIn l f
  end.

Fixpoint updIn (l : list ident) (f : fid) (i' : ident) : list ident :=
  match l with
  | [] => []
  | i :: l => if fidEqb (iid i) f then i' :: l else i :: updIn l f i'
  end.

Fixpoint setAt (l : list instr) (p : nat) (x : instr) : list instr :=
  match l, p with
  | [], _ => []
  | _ :: l, 0 => x :: l
  | y :: l, S p => y :: setAt l p x
  end.

(** genAddInstr: the instruction goes to the current offset. *)
Definition emit (c : list instr) (x : instr) : list instr := c ++ [x].

(** genEntryPoint (umka_gen.c:1128): the stub at [p] becomes a jump to the
    current offset. *)
Definition genEntryPoint (c : list instr) (p : nat) : list instr :=
  setAt c p (IGoto (List.length c)).

(** identAddConst for a function (umka_ident.c:171-275): a new identifier, or the
    one of an unresolved prototype with the same export mark and a compatible
    type; its constant becomes the current offset. *)
Definition identAddFn (st : cst) (d : decl) : outcome cst :=
  let ip := List.length (code st) in
  match findIn (idents st) (did d) with
  | None =>
      Ok (mkCst (mkIdent (did d) (dty d) (dexp d) ip None :: idents st) (code st))
  | Some i =>
      match iproto i with
      | Some p =>
          if Bool.eqb (iexp i) (dexp d) && Nat.eqb (ity i) (dty d)
          then Ok (mkCst (updIn (idents st) (did d)
                            (mkIdent (iid i) (dty d) (iexp i) ip (iproto i)))
                         (code st))
          else Err EOther
      | None => Err EOther                       (* "Duplicate identifier" *)
      end
  end.

(** The calls of a body: an identifier must have been declared
    (identAssertFind, umka_ident.c:105-111); the call goes to its constant
    (genTryRemoveImmediateEntryPoint and genCall, umka_expr.c:1778, 1904). *)
Fixpoint compileUses (st : cst) (us : list fid) : outcome cst :=
  match us with
  | [] => Ok st
  | f :: us =>
      match findIn (idents st) f with
      | Some i => compileUses (mkCst (idents st) (emit (code st) (ICall (ientry i)))) us
      | None => Err EOther
      end
  end.

(** parseFnDecl: declaration number [n]. *)
Definition parseFnDecl (st : cst) (n : nat) (d : decl) : outcome cst :=
  let* st := identAddFn st d in
  match findIn (idents st) (did d) with
  | None => UB
  | Some fn =>
      match dbody d with
      | Some us =>
          (* parseFnBlock, umka_stmt.c:1292-1296 *)
          let st := match iproto fn with
                    | Some p =>
                        mkCst (updIn (idents st) (did d)
                                 (mkIdent (iid fn) (ity fn) (iexp fn) (ientry fn) None))
                              (genEntryPoint (code st) p)
                    | None => st
                    end in
          let* st := compileUses (mkCst (idents st) (emit (code st) (IEnter n))) us in
          Ok (mkCst (idents st) (emit (code st) IRet))
      | None =>
          (* parseFnPrototype, umka_stmt.c:1384-1388 *)
          Ok (mkCst (updIn (idents st) (did d)
                       (mkIdent (iid fn) (ity fn) (iexp fn) (ientry fn)
                                (Some (ientry fn))))
                    (emit (code st) INop))
      end
  end.

Fixpoint parseDecls (st : cst) (n : nat) (ds : list decl) : outcome cst :=
  match ds with
  | [] => Ok st
  | d :: ds => let* st := parseFnDecl st n d in parseDecls st (S n) ds
  end.

Definition memNat (x : nat) (l : list nat) : bool := existsb (Nat.eqb x) l.

(** doResolveExtern (umka_stmt.c:64-125): [res] are the names of the external
    functions already resolved. *)
Fixpoint doResolveExtern (h : host) (l : list ident) (res : list nat)
  (c : list instr) : outcome (list nat * list instr) :=
  match l with
  | [] => Ok (res, c)
  | i :: l =>
      match iproto i with
      | None => doResolveExtern h l res c
      | Some p =>
          let x := bare (iid i) in
          let* (fn, res) :=
            match extern h x with
            | Some e =>
                if memNat x res then Err EOther
                else if negb (mayUse h x) then Err EOther
                else Ok (Some e, x :: res)
            | None => Ok (implLib h x, res)
            end in
          match fn with
          | None => Err EOther                   (* "Unresolved prototype" *)
          | Some e => doResolveExtern h l res
                        (emit (emit (genEntryPoint c p) (IExt e)) IRet)
          end
      end
  end.

(** parseProgram: the stub for the cleanup code, the module, the cleanup code. *)
Definition compile (h : host) (res : list nat) (ds : list decl)
  : outcome (list ident * list instr) :=
  let* st := parseDecls (mkCst [] [INop]) 0 ds in
  let* (_, c) := doResolveExtern h (idents st) res (code st) in
  Ok (idents st, emit (genEntryPoint c 0) IHalt).

(** * Execution: offsets of the running functions, the innermost first *)

(** What can be observed: a body is entered, an external function is called. *)
Inductive event := EvBody (d : nat) | EvExt (x : nat).

(** vmLoop (umka_vm.c:4062) for these instructions. *)
Definition mstep (c : list instr) (m : list nat) : option (list event * list nat) :=
  match m with
  | [] => None
  | pc :: rs =>
      match nth_error c pc with
      | Some INop => Some ([], S pc :: rs)
      | Some (IGoto n) => Some ([], n :: rs)
      | Some (IEnter d) => Some ([EvBody d], S pc :: rs)
      | Some (ICall n) => Some ([], n :: S pc :: rs)
      | Some (IExt x) => Some ([EvExt x], S pc :: rs)
      | Some IRet => Some ([], rs)
      | Some IHalt | None => None
      end
  end.

Inductive mstar (c : list instr) : list nat -> list event -> list nat -> Prop :=
| M_refl m : mstar c m [] m
| M_step m ev m1 tr m2 :
    mstep c m = Some (ev, m1) -> mstar c m1 tr m2 -> mstar c m (ev ++ tr) m2.

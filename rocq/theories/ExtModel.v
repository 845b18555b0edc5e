(** External functions: how the prototypes of Umka modules get their C functions.

    C strings are Coq strings without the terminating zero. C functions are named, not modelled; NULL is None. A module is
    what is left of it for this purpose: whether its text came from a string, whether that is trusted, and the names of
    its prototypes in the order of the identifier list. *)
From Coq Require Import ZArith Bool List String.
Import ListNotations.
Local Open Scope string_scope.

(** What a function pointer may be: a function of src/umka_runtime.c, its sandbox twin, a function of the host, or one
    of an implementation library. *)
Inductive cfun : Type :=
| FRtl (name : string)
| FSandbox (name : string)
| FHost (f : Z)
| FLib (f : Z).

(** External (src/umka_common.h:155-162), without its link. *)
Record external : Type := MkExt {
  x_name : string;
  x_entry : option cfun;
  x_upvalue : option Z;
  x_resolved : bool;
  x_trusted : bool
}.

(** strncpy and the zero after it (src/umka_common.c:594-595, DEFAULT_STR_LEN src/umka_common.h:15). *)
Definition cutName (s : string) : string := substring 0 255 s.

(** externalFind (src/umka_common.c:575-582); the list is from externals->first on. *)
Fixpoint externalFind (l : list external) (name : string) : option external :=
  match l with
  | [] => None
  | x :: l' => if String.eqb (x_name x) name then Some x else externalFind l' name
  end.

(** external->resolved = true (src/umka_stmt.c:85) on what externalFind returned. *)
Fixpoint setResolved (l : list external) (name : string) : list external :=
  match l with
  | [] => []
  | x :: l' =>
      if String.eqb (x_name x) name
      then MkExt (x_name x) (x_entry x) (x_upvalue x) true (x_trusted x) :: l'
      else x :: setResolved l' name
  end.

(** externalAdd (src/umka_common.c:585-601). *)
Definition externalAdd (l : list external) (name : string) (entry : option cfun) (upvalue : option Z) (tr : bool) : list external :=
  MkExt (cutName name) entry upvalue false tr :: l.

(** compilerAddClosure (src/umka_compiler.c:316-323); umkaAddFunc is the same without an upvalue (src/umka_api.c:166-169). *)
Definition addClosure (l : list external) (name : string) (f : option cfun) (upvalue : option Z) : list external * bool :=
  match externalFind l name with
  | Some _ => (l, false)
  | None => (externalAdd l name f upvalue false, true)
  end.

(** The table of compilerDeclareExternalFuncs (src/umka_compiler.c:151-174): the name, and whether there is a twin for
    the sandbox. *)
Definition rtlTable : list (string * bool) :=
  [("rtlmemcpy", false); ("rtlstdin", false); ("rtlstdout", false); ("rtlstderr", false); ("rtlfopen", true);
   ("rtlfclose", true); ("rtlfread", true); ("rtlfwrite", true); ("rtlfseek", true); ("rtlftell", true);
   ("rtlremove", true); ("rtlfeof", true); ("rtlfflush", false); ("rtltime", false); ("rtlclock", false);
   ("rtllocaltime", false); ("rtlgmtime", false); ("rtlmktime", false); ("rtlgetenv", true); ("rtlsystem", true);
   ("rtltrace", false)].

(** One line of it. *)
Definition rtlEntry (fs : bool) (n : string) (twin : bool) : cfun :=
  if twin then (if fs then FRtl n else FSandbox n) else FRtl n.

(** compilerDeclareExternalFuncs (src/umka_compiler.c:151-174). *)
Definition declareExternals (fs : bool) (l : list external) : list external :=
  fold_left (fun l '(n, twin) => externalAdd l n (Some (rtlEntry fs n twin)) None true) rtlTable l.

(** ModuleSource (src/umka_common.h:116-121): path, text, trusted. The text is what [Text] says. *)
Definition text : Type := list string.
Record source : Type := MkSrc { s_path : string; s_text : text; s_trusted : bool }.

(** moduleFindSource (src/umka_common.c:345-351). *)
Fixpoint findSource (l : list source) (path : string) : option source :=
  match l with
  | [] => None
  | s :: l' => if String.eqb (s_path s) path then Some s else findSource l' path
  end.

(** A prototype with its function: module, name, function, upvalue; the last says if it is from the list of externals.
    Stands for the stub emitted by src/umka_stmt.c:93-122. *)
Record stub : Type := MkStub { b_module : string; b_name : string; b_fn : cfun; b_upvalue : option Z; b_external : bool }.

(** The errors of doResolveExtern (src/umka_stmt.c:79, 82, 91). *)
Inductive xerr : Type := EAlready (n : string) | ECannot (n : string) | EUnresolved (n : string).

(** doResolveExtern (src/umka_stmt.c:64-132) for the prototypes of one module. [lib] is moduleGetImplLibFunc
    (src/umka_common.c:379-384). The error handler does not return; what was resolved before stays so. *)
Fixpoint resolve (path : string) (src trusted : bool) (lib : string -> option cfun) (names : list string) (l : list external)
    : list external * list stub * option xerr :=
  match names with
  | [] => (l, [], None)
  | n :: names' =>
      match externalFind l n with
      | Some x =>
          if x_resolved x then (l, [], Some (EAlready n)) else
          if negb src || (x_trusted x && negb trusted) then (l, [], Some (ECannot n)) else
          let l1 := setResolved l n in
          match x_entry x with
          | None => (l1, [], Some (EUnresolved n))
          | Some f =>
              let '(l2, bs, e) := resolve path src trusted lib names' l1 in
              (l2, MkStub path n f (x_upvalue x) true :: bs, e)
          end
      | None =>
          match lib n with
          | None => (l, [], Some (EUnresolved n))
          | Some f =>
              let '(l2, bs, e) := resolve path src trusted lib names' l in
              (l2, MkStub path n f None false :: bs, e)
          end
      end
  end.

(** The parts of Umka this is about. [u_libs] is modules->implLibsEnabled, [u_loaded] the paths of the modules. *)
Record umka : Type := MkUmka {
  u_externals : list external;
  u_sources : list source;
  u_libs : bool;
  u_loaded : list string;
  u_stubs : list stub;
  u_failed : bool
}.

(** compilerInit (src/umka_compiler.c:195-252): externals, and the embedded modules with their names; [rt] gives name,
    regularized path and text of each. *)
Definition init (fs libs : bool) (rt : list (string * string * text)) : umka :=
  MkUmka (declareExternals fs [])
    (map (fun '(n, p, t) => MkSrc p t (String.eqb n "std.um")) rt) libs [] [] false.

(** What the host does, and what the compiler does on its account. Modules are compiled after the ones they import; the
    compilation of a module is one operation here, in the order in which parseModule ends (src/umka_decl.c:899-917).
    The paths are those of moduleRegularizePath (C30): for an import, relative to the current folder if that succeeds,
    and relative to the importing module. [file] is what is on the disk and [lib] what the loader of libraries finds. *)
Inductive op : Type :=
| OAddFunc (name : string) (f : option Z) (upvalue : option Z)
| OAddModule (path : string) (t : text)
| OImport (cur : option string) (rel : string) (file : option text) (lib : string -> option Z)
| OMain (path : string) (str : option text) (file : option text) (lib : string -> option Z).

(** What is seen: the result of umkaAddFunc and umkaAddModule, or how the module compiled. *)
Inductive out : Type := RBool (b : bool) | RModule (e : option xerr) | RNoFile | RKnown | RNone.

(** moduleAdd and doResolveExtern in parseModule (src/umka_decl.c:899-917). A module that is known already is not
    compiled again (src/umka_decl.c:849-850). Implementation libraries are looked for only if enabled
    (src/umka_common.c:316-332). *)
Definition compileModule (u : umka) (path : string) (src trusted : bool) (t : option text) (lib : string -> option Z) : umka * out :=
  if existsb (String.eqb path) (u_loaded u) then (u, RKnown) else
  match t with
  | None => (MkUmka (u_externals u) (u_sources u) (u_libs u) (u_loaded u) (u_stubs u) true, RNoFile)
  | Some names =>
      let lib' n := if u_libs u then option_map FLib (lib n) else None in
      let '(l, bs, e) := resolve path src trusted lib' names (u_externals u) in
      (MkUmka l (u_sources u) (u_libs u) (path :: u_loaded u) (u_stubs u ++ bs) (match e with None => false | Some _ => true end),
       RModule e)
  end.

Definition step (u : umka) (o : op) : umka * out :=
  match o with
  | OAddFunc n f up =>
      (* src/umka_compiler.c:316-323 *)
      let '(l, b) := addClosure (u_externals u) n (option_map FHost f) up in
      (MkUmka l (u_sources u) (u_libs u) (u_loaded u) (u_stubs u) (u_failed u), RBool b)
  | OAddModule p t =>
      (* src/umka_compiler.c:303-313 *)
      match findSource (u_sources u) p with
      | Some _ => (u, RBool false)
      | None => (MkUmka (u_externals u) (u_sources u ++ [MkSrc p t false]) (u_libs u) (u_loaded u) (u_stubs u) (u_failed u), RBool true)
      end
  | OImport cur rel file lib =>
      (* src/umka_decl.c:814-868, src/umka_lexer.c:108-148 *)
      if u_failed u then (u, RNone) else
      match match cur with Some p => findSource (u_sources u) p | None => None end with
      | Some s => compileModule u (s_path s) true (s_trusted s) (Some (s_text s)) lib
      | None => compileModule u rel false false file lib
      end
  | OMain path str file lib =>
      (* src/umka_compiler.c:217-222: not trusted *)
      if u_failed u then (u, RNone) else
      match str with
      | Some t => compileModule u path true false (Some t) lib
      | None => compileModule u path false false file lib
      end
  end.

Fixpoint run (u : umka) (h : list op) : umka :=
  match h with
  | [] => u
  | o :: h' => run (fst (step u o)) h'
  end.

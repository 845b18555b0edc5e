(** * Modules importing modules

    /repo/src/umka_decl.c:799-935, /repo/src/umka_common.c:264-345. *)
From Coq Require Import ZArith List Bool String Ascii.
From Verif Require Import Base.
Import ListNotations.

(** One importItem, [ident "="] stringLiteral: /repo/src/umka_decl.c:800-811. *)
Record item := { given : option string; text : string }.

(** What the compiler is given. A text is reduced to the list of its imports: what it declares is not
    modelled, nor are the errors in it.
    - [regCur t]: moduleRegularizePath of [t] in the current folder;
    - [regIn m t]: the same in the folder of module [m];
    - [source p]: the text added for path [p], moduleFindSource;
    - [file p]: the text of the file [p];
    - [nameOf p]: the name that moduleNameFromPath gives, [None] if it reports an error. *)
Record world := {
  regCur : string -> option string;
  regIn : string -> string -> option string;
  source : string -> option (list item);
  file : string -> option (list item);
  nameOf : string -> option string
}.

(** Module: /repo/src/umka_common.h:104-115. *)
Record module := {
  mpath : string;
  mname : string;
  importAlias : list (nat * string);
  isCompiled : bool
}.

(** Modules, with the numbers of the modules whose declarations were compiled, in this order. *)
Record state := { modules : list module; compiled : list nat }.

(** MAX_MODULES: /repo/src/umka_common.h:18. *)
Definition MAX_MODULES : nat := Z.to_nat 1024.

(** importAlias[j]: /repo/src/umka_common.h:111. *)
Definition aliasAt (m : module) (j : nat) : option string :=
  match find (fun a => Nat.eqb (fst a) j) (importAlias m) with
  | Some a => Some (snd a)
  | None => None
  end.

(** moduleFind: /repo/src/umka_common.c:264-270. *)
Fixpoint findFrom (i : nat) (ms : list module) (p : string) : option nat :=
  match ms with
  | [] => None
  | m :: ms => if String.eqb (mpath m) p then Some i else findFrom (S i) ms p
  end.

Definition moduleFind (s : state) (p : string) : option nat := findFrom 0 (modules s) p.

(** moduleFindImported: /repo/src/umka_common.c:273-282. *)
Definition moduleFindImported (s : state) (i : nat) (a : string) : option nat :=
  match nth_error (modules s) i with
  | None => None
  | Some m =>
      find (fun j => match aliasAt m j with Some b => String.eqb b a | None => false end)
           (seq 0 (List.length (modules s)))
  end.

(** "Module name cannot contain spaces or tabs": /repo/src/umka_common.c:295-297. *)
Fixpoint hasBlank (s : string) : bool :=
  match s with
  | EmptyString => false
  | String c s => Ascii.eqb c " " || Ascii.eqb c "009" || hasBlank s
  end.

(** moduleAdd, without implementation libraries: /repo/src/umka_common.c:285-344. *)
Definition moduleAdd (w : world) (p : string) (s : state) : outcome (nat * state) :=
  let n := List.length (modules s) in
  if Nat.leb MAX_MODULES n then Err EOther
  else match nameOf w p with
  | None => Err EOther
  | Some name =>
      if hasBlank name then Err EOther
      else match moduleFind s p with
      | Some _ => Err EOther
      | None =>
          let m := {| mpath := p; mname := name; importAlias := [(n, name)]; isCompiled := false |} in
          Ok (n, {| modules := modules s ++ [m]; compiled := compiled s |})
      end
  end.

Fixpoint update (i : nat) (f : module -> module) (ms : list module) : list module :=
  match ms, i with
  | [], _ => []
  | m :: ms, 0 => f m :: ms
  | m :: ms, S i => m :: update i f ms
  end.

(** importAlias[j] = a: /repo/src/umka_decl.c:873. *)
Definition setAlias (i j : nat) (a : string) (s : state) : state :=
  {| modules := update i (fun m => {| mpath := mpath m; mname := mname m;
                                      importAlias := (j, a) :: importAlias m;
                                      isCompiled := isCompiled m |}) (modules s);
     compiled := compiled s |}.

(** parseDecls, then isCompiled = true: /repo/src/umka_decl.c:911-914. *)
Definition finish (i : nat) (s : state) : state :=
  {| modules := update i (fun m => {| mpath := mpath m; mname := mname m;
                                      importAlias := importAlias m; isCompiled := true |}) (modules s);
     compiled := compiled s ++ [i] |}.

(** The path and the text of an imported module: /repo/src/umka_decl.c:813-830. [Some ts]: a text
    added for this path. *)
Definition locate (w : world) (m t : string) : option (string * option (list item)) :=
  match regCur w t with
  | Some p =>
      match source w p with
      | Some ts => Some (p, Some ts)
      | None => match regIn w m t with Some p => Some (p, None) | None => None end
      end
  | None => match regIn w m t with Some p => Some (p, None) | None => None end
  end.

(** parseImportItem in module [i] of path [mp]: /repo/src/umka_decl.c:800-878. [load] is the recursive
    call of parseModule. *)
Definition parseImportItem (w : world) (load : string -> list item -> state -> outcome (nat * state))
    (i : nat) (mp : string) (it : item) (s : state) : outcome state :=
  match locate w mp (text it) with
  | None => Err EOther
  | Some (p, src) =>
      match nameOf w p with
      | None => Err EOther
      | Some name =>
          let alias := match given it with Some a => a | None => name end in
          match moduleFindImported s i alias with
          | Some _ => Err EOther
          | None =>
              let* (k, s) := (match moduleFind s p with
                              | Some k => Ok (k, s)
                              | None =>
                                  match src with
                                  | Some ts => load p ts s
                                  | None => match file w p with
                                            | Some ts => load p ts s
                                            | None => Err EOther
                                            end
                                  end
                              end) in
              match nth_error (modules s) k, nth_error (modules s) i with
              | Some mk, Some mi =>
                  if negb (isCompiled mk) then Err EOther
                  else match aliasAt mi k with
                  | Some _ => Err EOther
                  | None => Ok (setAlias i k alias s)
                  end
              | _, _ => UB
              end
          end
      end
  end.

(** parseImport: /repo/src/umka_decl.c:882-898. *)
Fixpoint parseImport (w : world) (load : string -> list item -> state -> outcome (nat * state))
    (i : nat) (mp : string) (its : list item) (s : state) : outcome state :=
  match its with
  | [] => Ok s
  | it :: its => let* s := parseImportItem w load i mp it s in parseImport w load i mp its s
  end.

(** parseModule of the text [ts] at path [p]: /repo/src/umka_decl.c:902-917. [n] counts down the nested
    calls. *)
Fixpoint parseModule (w : world) (n : nat) (p : string) (ts : list item) (s : state)
    : outcome (nat * state) :=
  match n with
  | 0 => Err EFuel
  | S n =>
      let* (i, s) := moduleAdd w p s in
      let* s := parseImport w (parseModule w n) i p ts s in
      Ok (i, finish i s)
  end.

(** The module of the predeclared identifiers: /repo/src/umka_compiler.c:225. It is never compiled. *)
Definition init : state :=
  {| modules := [{| mpath := "#universe"; mname := "#universe"; importAlias := [(0, "#universe"%string)];
                    isCompiled := false |}];
     compiled := [] |}.

(** parseProgram of the text [ts] at path [p]: /repo/src/umka_decl.c:921-925. *)
Definition parseProgram (w : world) (p : string) (ts : list item) : outcome state :=
  let* (_, s) := parseModule w (S MAX_MODULES) p ts init in Ok s.

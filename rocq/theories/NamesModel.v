(** Lists of names in declarations.

    Simplifications: a type is one token, initialisers and the making of the variables are left out. *)
From Coq Require Import Arith List.
From Verif Require Import Base.
Import ListNotations.

(** The text of an identifier, without its final zero. *)
Definition name : Type := list nat.
(** Tokens; [KTy] stands for a whole type. *)
Inductive tok : Type := KId (n : name) | KStar | KComma | KColon | KTy (t : nat) | KSemi | KLpar | KRpar | KVar | KOther.
(** MAX_IDENT_LEN, MAX_IDENTS_IN_LIST (src/umka_common.h:15-17). *)
Definition maxLen : nat := 255.
Definition maxList : nat := 16.
(** exported[i] = v: undefined outside the array. *)
Definition setAt {A} (b : list A) (i : nat) (v : A) : outcome (list A) :=
  if i <? length b then Ok (firstn i b ++ v :: skipn (S i) b) else UB.
(** strcpy(names[i], n) (src/umka_decl.c:60): undefined outside the array, or if the name does not fit IdentName (src/umka_lexer.h:95). *)
Definition setName (b : list name) (i : nat) (n : name) : outcome (list name) := if length n <=? maxLen then setAt b i n else UB.

(** One round of parseIdentList (src/umka_decl.c:51-70) without the tokens. *)
Definition store (cap : nat) (names : list name) (exported : list bool) (num : nat) (n : name) (e : bool) : outcome (list name * list bool * nat) :=
  if cap <=? num then Err ETooMany
  else let* names := setName names num n in let* exported := setAt exported num e in Ok (names, exported, S num).
(** parseIdentList with parseExportMark (src/umka_decl.c:38-70). *)
Fixpoint identList (l : list tok) (cap : nat) (names : list name) (exported : list bool) (num : nat) : outcome (list name * list bool * nat * list tok) :=
  match l with
  | KId n :: KStar :: KComma :: r => let* (names, exported, num) := store cap names exported num n true in identList r cap names exported num
  | KId n :: KStar :: r => let* s := store cap names exported num n true in Ok (s, r)
  | KId n :: KComma :: r => let* (names, exported, num) := store cap names exported num n false in identList r cap names exported num
  | KId n :: r => let* s := store cap names exported num n false in Ok (s, r)
  | _ => Err ESyntax
  end.
(** The callers (src/umka_decl.c:419-423, 644-648, 717-720), whose arrays have MAX_IDENTS_IN_LIST items; they use the first num. What
    is in the arrays before is given. *)
Definition readNames (names : list name) (exported : list bool) (l : list tok) : outcome (list (name * bool) * list tok) :=
  let* (names, exported, num, r) := identList l maxList names exported 0 in Ok (combine (firstn num names) (firstn num exported), r).

(** parseVarDeclItem (src/umka_decl.c:642-656) with parseTypedIdentList (src/umka_decl.c:73-79). *)
Definition varItem (names : list name) (exported : list bool) (l : list tok) : outcome (list (name * bool) * nat * list tok) :=
  let* (ns, r) := readNames names exported l in match r with KColon :: KTy t :: r => Ok (ns, t, r) | _ => Err ESyntax end.
(** The loop of parseFullVarDecl (src/umka_decl.c:702-707). *)
Fixpoint varItems (fuel : nat) (names : list name) (exported : list bool) (l : list tok) : outcome (list (list (name * bool) * nat) * list tok) :=
  match fuel with
  | O => Err EFuel
  | S fuel =>
      match l with
      | KId _ :: _ =>
          let* (ns, t, r) := varItem names exported l in
          match r with KSemi :: r => let* (g, r) := varItems fuel names exported r in Ok ((ns, t) :: g, r) | _ => Err ESyntax end
      | KRpar :: r => Ok ([], r)
      | _ => Err ESyntax
      end
  end.
(** parseFullVarDecl (src/umka_decl.c:695-711). *)
Definition varDecl (names : list name) (exported : list bool) (l : list tok) : outcome (list (list (name * bool) * nat) * list tok) :=
  match l with
  | KVar :: KLpar :: r => varItems (length l) names exported r
  | KVar :: r => let* (ns, t, r) := varItem names exported r in Ok ([(ns, t)], r)
  | _ => Err ESyntax
  end.

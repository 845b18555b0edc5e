(** The leak sanitizer: what is printed about blocks that are alive when a program has ended.

    Built on HeapModel.v, which leaves out the type and the instruction pointer of a chunk; they are kept here in a map from
    the addresses of chunk headers. Types, file names and function names are their addresses, as the code compares them. *)
From Coq Require Import ZArith Bool List.
From Verif Require Import Base HeapModel HeapSpec.
Import ListNotations.
Local Open Scope Z_scope.

(** HeapChunk.type and HeapChunk.ip (src/umka_vm.h:167-176). *)
Definition site : Type := (Z * Z)%type.
(** DebugInfo (src/umka_common.h:71-76): file name, function name, line. *)
Definition place : Type := (Z * Z * Z)%type.
(** LeakLocation (src/umka_vm.c:342-347), without its link. *)
Definition loc : Type := (Z * place)%type.
(** The lines printed (src/umka_vm.c:351, 384). *)
Inductive printed : Type := LPage (page refs : Z) | LLoc (l : loc).

(** src/umka_vm.c:369. *)
Definition sameLoc (t : Z) (d : place) (l : loc) : bool :=
  let '(f, g, n) := d in
  let '(f', g', n') := snd l in
  (t =? fst l) && (f =? f') && (g =? g') && (n =? n').

Section Leak.
Variable sites : Z -> site.
(** debugPerInstr[ip]; None outside of the array. *)
Variable debugAt : Z -> option place.

(** src/umka_vm.c:356-385, the loop over the chunks; [locs] is the list at firstLoc. *)
Fixpoint leakChunks (n : nat) (h : heap) (a i : Z) (locs : list loc) : outcome (list printed) :=
  match n with
  | O => Ok []
  | S n' =>
      if i <? pg_occ (h_page h a) then
        let chunk := a + i * pg_chunk (h_page h a) in
        match h_hdr h chunk with
        | None => UB
        | Some c =>
            if hd_ref c =? 0 then leakChunks n' h a (i + 1) locs else
            let (type, ip) := sites chunk in
            match debugAt ip with
            | None => UB
            | Some debug =>
                if existsb (sameLoc type debug) locs then leakChunks n' h a (i + 1) locs
                else let* r := leakChunks n' h a (i + 1) ((type, debug) :: locs) in Ok (LLoc (type, debug) :: r)
            end
        end
      else Ok []
  end.

(** src/umka_vm.c:340-388, pageLeakSan; [normal] is terminatedNormally, and there is a fiber. *)
Definition pageLeakSan (h : heap) (a level : Z) (normal : bool) : outcome (list printed) :=
  if (0 <? level) && normal then
    let* r := if 1 <? level then leakChunks (S (Z.to_nat (pg_occ (h_page h a)))) h a 0 [] else Ok [] in
    Ok (LPage a (pg_ref (h_page h a)) :: r)
  else Ok [].

(** src/umka_vm.c:404-427, pageFree: the lines printed; callbacks are those of HeapModel.pageFree. *)
Fixpoint leakPages (fuel : nat) (h : heap) (a level : Z) (normal : bool) : outcome (list printed) :=
  match fuel with
  | O => Err EFuel
  | S f =>
      if a =? 0 then Ok [] else
      let* x := pageLeakSan h a level normal in
      let* r := leakPages f h (pg_next (h_page h a)) level normal in Ok (x ++ r)
  end.
Definition leakReport (h : heap) (level : Z) (normal : bool) : outcome (list printed) :=
  leakPages (walk h) h (h_first h) level normal.

(** src/umka_vm.c:917-926, vmFree: the stack of the main fiber is released first. *)
Definition vmFree (h : heap) (stack level : Z) (normal : bool) : outcome (list printed) :=
  let* (h, a) := pageFind h stack in
  if a =? 0 then Err EOther else
  let* (h, _, _) := chunkRefCnt h a stack (-1) in
  leakReport h level normal.
End Leak.

(** src/umka_vm.c:705-744, chunkAlloc: the type and the instruction pointer of the new chunk. *)
Definition newSite (sites : Z -> site) (o : op) (x : out) (w : site) : Z -> site :=
  match o, x with
  | OAlloc _ _ _, RPtr p => fun y => if y =? p - 40 then w else sites y
  | _, _ => sites
  end.

(** What a user expects of files, stated without the functions of FileModel. *)
From Coq Require Import ZArith Lia Bool List.
Import ListNotations.
From Verif Require Import Base FileModel.
Local Open Scope Z_scope.

(** Object [h] is an open file: the bytes of the file, the position, the permissions. *)
Definition isOpen (s : st) (h k : nat) (t : stream) : Prop :=
  nth_error (objs s) h = Some (Live (Some k)) /\ nth_error (streams (wd s)) k = Some t /\ sopen t = true.

(** [new] is [old] with the bytes [d] put at [pos]; a gap is filled with zeros. *)
Definition patched (old : list Z) (pos : Z) (d new : list Z) : Prop :=
  forall i, nth_error new i =
    (if Z.of_nat i <? pos then (if Nat.ltb i (length old) then nth_error old i else Some 0)
     else if Z.of_nat i <? pos + Z.of_nat (length d) then nth_error d (Z.to_nat (Z.of_nat i - pos)) else nth_error old i).

(** Sequences of writes to one file. *)
Definition writes (h : nat) (ds : list (list Z)) : list op :=
  map (fun d => OWrite (Some h) (BBytes d) (Z.of_nat (length d))) ds.

Definition size_ok (d : list Z) : Prop := Z.of_nat (length d) <= INT_MAX.

(** A script that passes no null names, does not close the standard streams and opens no file for both reading and writing;
    no array is longer than the allocator allows. *)
Definition careful (o : op) : Prop :=
  match o with
  | OOpen name mode _ => name <> None /\ ~ In 43 mode
  | OClose (Some h) _ => (3 <= h)%nat
  | ORemove name _ | OGetenv name => name <> None
  | ORead _ (BBytes l) _ | ORead _ (BValue _ l) _ | OWrite _ (BBytes l) _ | OWrite _ (BValue _ l) _ => size_ok l
  | OFprint _ l _ | OPrint l _ => size_ok l
  | _ => True
  end.

(** What a closed file answers. *)
Definition refuses (h : nat) (o : op) (r : out) : Prop :=
  match o with
  | OClose (Some h') _ => h' = h -> r = RCode 5
  | OSeek (Some h') _ _ => h' = h -> r = RCode 5
  | OTell (Some h') => h' = h -> r = RPos (-1) 5
  | OEof (Some h') => h' = h -> r = RBool true
  | OFlush (Some h') => h' = h -> r = RCode 5
  | OReadAll (Some h') _ => h' = h -> r = RAll [] 5
  | ORead (Some h') (BBytes l) _ => h' = h -> l <> [] -> r = RRead l 0 5
  | OWrite (Some h') (BBytes l) _ => h' = h -> l <> [] -> r = RCount 0 5
  | _ => True
  end.

(** The operations on one file. *)
Definition onFile (h : nat) (o : op) : Prop :=
  match o with
  | OClose (Some h') _ | OSeek (Some h') _ _ | OTell (Some h') | OEof (Some h') | OFlush (Some h') | OReadAll (Some h') _
  | ORead (Some h') _ _ | OWrite (Some h') _ _ => h' = h
  | _ => False
  end.

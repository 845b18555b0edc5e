(** Theorems about format strings (C39). *)
From Coq Require Import ZArith List.
From Verif Require Import Base NumModel NumSpec FmtModel FmtSpec FmtProofs FmtPrint FmtScan FmtWord.
Import ListNotations.
Local Open Scope Z_scope.

(** printf succeeds exactly for a format made of texts and valid conversions that take the given values in order; it then makes
    one call of the library for each value, for the texts and the one conversion it belongs to, with the argument this conversion
    reads, and one for the rest. Partial: an integer with length l or ll must be int or uint (see C39_refuted), and %v with both a
    length and a width or precision is not described. *)
Theorem C39_printf_partial : forall args f, Forall argOk args ->
  match printfAll f args with
  | Ok cs => exists items, f = spellAll items /\ Forall wfItem items /\ Forall2 accepts (argConvs items) args /\ callsFor items args cs
  | Err _ => ~ formatFor accepts f args
  | UB => False
  end.
Proof. exact printf_thm. Qed.
Print Assumptions C39_printf_partial.

(** "a=%d, b=%5.2lf%%\n" *)
Definition sample : list Z := [97; 61; 37; 100; 44; 32; 98; 61; 37; 53; 46; 50; 108; 102; 37; 37; 10].
Example C39_printf_example : Forall argOk [(KInt8, -7); (KReal, 0)] /\
  fmap (map cpiece) (printfAll sample [(KInt8, -7); (KReal, 0)]) = Ok [[97; 61; 37; 100]; [44; 32; 98; 61; 37; 53; 46; 50; 108; 102]; [37; 37; 10]] /\
  fmap (map carg) (printfAll sample [(KInt8, -7); (KReal, 0)]) = Ok [Some (PInt 32 true (-7)); Some (PReal 0); None] /\
  printfAll sample [(KInt8, -7)] = Err EIllegalType /\ printfAll [37; 104; 104; 100] [(KInt, 128)] = Err EOverflow /\ printfAll [37; 113] [(KInt, 1)] = Err ESyntax.
Proof.
  split. { constructor; [split; [discriminate|]|constructor; [split; [discriminate|intros X; discriminate]|constructor]]. intros _. vm_compute. intuition discriminate. }
  split; [vm_compute; reflexivity|]. split; [vm_compute; reflexivity|]. split; [vm_compute; reflexivity|]. split; vm_compute; reflexivity.
Qed.

(** The pieces cover the format exactly, and each but the last takes one value. *)
Theorem C39_pieces : forall f args cs, Forall argOk args -> printfAll f args = Ok cs ->
  concat (map cpiece cs) = f /\ length cs = S (length args) /\
  map (fun c => match carg c with Some _ => true | None => false end) cs = repeat true (length args) ++ [false].
Proof. exact printf_pieces. Qed.
Print Assumptions C39_pieces.
Example C39_pieces_example : fmap (fun cs => length (concat (map cpiece cs))) (printfAll sample [(KInt8, -7); (KReal, 0)]) = Ok 17%nat.
Proof. vm_compute. reflexivity. Qed.

(** The compile-time check accepts exactly the formats with the right types. *)
Theorem C39_static : forall f ks,
  match staticCheck compatPrintf f ks with Ok _ => formatFor acceptsKind f ks | Err _ => ~ formatFor acceptsKind f ks | UB => False end.
Proof. exact static_printf. Qed.
Print Assumptions C39_static.

(** After it, printf can only fail because a value does not fit. *)
Theorem C39_static_run : forall args f, staticCheck compatPrintf f (map fst args) = Ok tt -> Forall argOk args ->
  (exists cs, printfAll f args = Ok cs) \/ printfAll f args = Err EOverflow.
Proof. exact static_run. Qed.
Print Assumptions C39_static_run.
Example C39_static_example : staticCheck compatPrintf sample [KInt8; KReal] = Ok tt /\ staticCheck compatPrintf sample [KInt8; KStr] = Err EIllegalType /\
  staticCheck compatPrintf sample [KInt8; KReal; KInt] = Err EIllegalType.
Proof. split; [vm_compute; reflexivity|]. split; vm_compute; reflexivity. Qed.

(** The same for scanf: the conversions name the types of the variables exactly, and the library writes as many bytes as the
    variable has. Partial: except for integers with length l and for characters with a width (see C39_refuted). *)
Theorem C39_scanf_partial : forall f ks, Forall (fun k => k <> KVoid) ks -> match scanfAll f ks with
  | Ok cs => exists items, f = spellAll items /\ Forall wfItem items /\ Forall2 scanAccepts (argConvs items) ks /\ scallsFor items ks cs
  | Err _ => ~ formatFor scanAccepts f ks
  | UB => False
  end.
Proof. exact scanf_thm. Qed.
Print Assumptions C39_scanf_partial.
Theorem C39_scanf_pieces : forall f ks cs, Forall (fun k => k <> KVoid) ks -> scanfAll f ks = Ok cs -> concat (map spiece cs) = f /\ map sdest cs = ks ++ [KVoid].
Proof. exact scanf_pieces. Qed.
Print Assumptions C39_scanf_pieces.
Theorem C39_scanf_static : forall f ks,
  match staticCheck compatScanf f ks with Ok _ => formatFor scanAccepts f ks | Err _ => ~ formatFor scanAccepts f ks | UB => False end.
Proof. exact static_scanf. Qed.
Print Assumptions C39_scanf_static.
(** "x %hd %lf" *)
Example C39_scanf_example : fmap (map spiece) (scanfAll [120; 32; 37; 104; 100; 32; 37; 108; 102] [KInt16; KReal]) = Ok [[120; 32; 37; 104; 100]; [32; 37; 108; 102]; []] /\
  scanfAll [37; 104; 100] [KInt32] = Err EIllegalType /\ staticCheck compatScanf [37; 104; 100] [KInt16] = Ok tt /\ staticCheck compatScanf [37; 100] [KInt] = Err EIllegalType.
Proof. split; [vm_compute; reflexivity|]. split; [vm_compute; reflexivity|]. split; vm_compute; reflexivity. Qed.

(** What the library reads or writes is not always what is passed: "%lld" of an int32 value reads 64 bits where 32 are passed;
    "%5lv" is passed on as "%5 s", not a valid conversion; "%ld" writes 8 bytes to an int32 variable and "%5c" 5 bytes to a char. *)
Theorem C39_refuted :
  (exists c cl a, printfAll (spell c) [(KInt32, -1)] = Ok [cl; {| cfmt := []; cpiece := []; carg := None |}] /\ carg cl = Some a /\ cfmt cl = spell c /\ printed c a = None) /\
  (exists f cl, printfAll f [(KInt, 5)] = Ok [cl; {| cfmt := []; cpiece := []; carg := None |}] /\ carg cl = Some PStr /\ ~ formatFor accepts (cfmt cl) [(KStr, 0)]) /\
  (exists c cl, scanfAll (spell c) [KInt32] = Ok [cl; {| sfmt := [37; 110]; spiece := []; sdest := KVoid |}] /\ sdest cl = KInt32 /\ sizeOf KInt32 < written c) /\
  (exists c cl, scanfAll (spell c) [KChar] = Ok [cl; {| sfmt := [37; 110]; spiece := []; sdest := KVoid |}] /\ sdest cl = KChar /\ sizeOf KChar < written c).
Proof. split; [exact refuted_printf|]. split; [exact refuted_any|]. exact refuted_scanf. Qed.
Print Assumptions C39_refuted.

(** %s reads the next word: the characters up to a space, the byte 255 or the end, after the spaces; what follows the character
    that ended the word is left. *)
Theorem C39_word_partial : forall sp w e rest, Forall (fun c => isSpace c = true) sp -> Forall (fun c => isEnd c = false) w -> isEnd e = true ->
  (w = [] -> isSpace e = false) -> 4 * Z.of_nat (length w) + 32 <= INT_MAX -> forall src, src ++ [0] = sp ++ w ++ e :: rest ->
  fsscanfString src = Ok (w, Z.of_nat (length sp + length w + 1), rest).
Proof. exact word_thm. Qed.
Print Assumptions C39_word_partial.
Example C39_word_example : fsscanfString [32; 97; 98; 99; 32; 100] = Ok ([97; 98; 99], 5, [100; 0]).
Proof. vm_compute. reflexivity. Qed.

(** A word that ends the source takes the terminating zero with it: the next conversion reads past the source. *)
Theorem C39_word_refuted : exists src w len, fsscanfString src = Ok (w, len, []) /\ Z.of_nat (length src) < len.
Proof. exists [97; 98; 99], [97; 98; 99], 4. split; vm_compute; reflexivity. Qed.
Print Assumptions C39_word_refuted.

(** C63: files. C64: bytes of values, broken-down times. *)
From Coq Require Import ZArith Lia Bool List.
Import ListNotations.
From Verif Require Import Base FileModel FileSpec FileProofs FileSafe ByteModel ByteProofs.
Local Open Scope Z_scope.

(** A new file, written piece by piece, closed, opened again and read as a whole gives all the pieces, whatever the state. *)
Theorem C63_write_then_readall : forall s nm ds, Forall size_ok ds -> Z.of_nat (length (concat ds)) <= 2147483392 ->
  let h := length (objs s) in
  exists s', run true s ([OOpen (Some nm) [119; 98] true] ++ writes h ds ++ [OClose (Some h) true; OOpen (Some nm) [114; 98] true; OReadAll (Some (S h)) (Z.of_nat (length (concat ds)))])
    = Ok (s', [RFile (Some h) 0] ++ map (fun d => RCount (Z.of_nat (length d)) 0) ds ++ [RCode 0; RFile (Some (S h)) 0; RAll (concat ds) 0]).
Proof. exact roundtrip. Qed.
Print Assumptions C63_write_then_readall.
Example C63_write_then_readall_case : Forall size_ok [[1; 2]; []; [0; 255]] /\ Z.of_nat (length (concat [[1; 2]; []; [0; 255]])) <= 2147483392
  /\ match run true (init [] (fun _ => []) 3 []) [OOpen (Some [97]) [119; 98] true; OWrite (Some 3%nat) (BBytes [1; 2]) 2; OWrite (Some 3%nat) (BBytes [0; 255]) 2; OClose (Some 3%nat) true; OOpen (Some [97]) [114; 98] true; OReadAll (Some 4%nat) 100]
     with Ok (_, outs) => nth_error outs 5 = Some (RAll [1; 2; 0; 255] 0) | _ => False end.
Proof. split; [repeat constructor; vm_compute; discriminate|]. split; [vm_compute; discriminate | vm_compute; reflexivity]. Qed.

(** Reading a whole file gives its bytes from any position, or the end-of-file code if it is longer than 0x7FFFFF00; it never fails to allocate. *)
Theorem C63_readall_whole : forall s h k t lim, isOpen s h k t -> sseek t = true -> srd t = true ->
  let c := inodes (wd s) (sino t) in
  Z.of_nat (length c) <= lim ->
  exists s', freadall true s (Some h) lim = Ok (s', (if Z.of_nat (length c) <=? 2147483392 then (c, 0) else ([], 5)))
    /\ inodes (wd s') = inodes (wd s) /\ objs s' = objs s /\ dirs (wd s') = dirs (wd s).
Proof. exact readall_ok. Qed.
Print Assumptions C63_readall_whole.

(** Reading: the count is what there was, at most what was asked; those bytes are in the buffer, the rest of it is untouched. *)
Theorem C63_read : forall s h k t l lim, isOpen s h k t -> srd t = true -> slast t <> LWrite -> 0 <= spos t -> size_ok l -> l <> [] -> 0 <= lim ->
  let rest := skipn (Z.to_nat (spos t)) (inodes (wd s) (sino t)) in
  let n := Z.min (Z.min (Z.of_nat (length l)) lim) (Z.of_nat (length rest)) in
  exists s' t', fread true s (Some h) (BBytes l) lim = Ok (s', (firstn (Z.to_nat n) rest ++ skipn (Z.to_nat n) l, n, if n =? Z.of_nat (length l) then 0 else 5))
    /\ isOpen s' h k t' /\ spos t' = spos t + n /\ sino t' = sino t /\ inodes (wd s') = inodes (wd s) /\ objs s' = objs s /\ dirs (wd s') = dirs (wd s)
    /\ (n < Z.of_nat (length l) -> seof t' = true).
Proof. exact read_ok. Qed.
Print Assumptions C63_read.

(** Writing: the file gets exactly the bytes counted, at the position (at the end in append mode), and no other file changes. *)
Theorem C63_write : forall s h k t l lim, isOpen s h k t -> swr t = true -> (slast t <> LRead \/ seof t = true) -> 0 <= spos t -> size_ok l -> l <> [] -> 0 <= lim ->
  let n := Z.min (Z.of_nat (length l)) lim in
  let pos := if sapp t then Z.of_nat (length (inodes (wd s) (sino t))) else spos t in
  exists s' t', fwrite true s (Some h) (BBytes l) lim = Ok (s', (n, if n =? Z.of_nat (length l) then 0 else 5))
    /\ isOpen s' h k t' /\ t' = MkS (sino t) (pos + n) (srd t) (swr t) (sapp t) (sseek t) (seof t) LWrite true
    /\ inodes (wd s') (sino t) = writeAt (inodes (wd s) (sino t)) (Z.to_nat pos) (firstn (Z.to_nat n) l)
    /\ patched (inodes (wd s) (sino t)) pos (firstn (Z.to_nat n) l) (inodes (wd s') (sino t))
    /\ (forall j, j <> sino t -> inodes (wd s') j = inodes (wd s) j) /\ objs s' = objs s /\ dirs (wd s') = dirs (wd s).
Proof. exact write_ok. Qed.
Print Assumptions C63_write.
Example C63_read_write_case : exists s h k t, isOpen s h k t /\ srd t = true /\ swr t = true /\ slast t = LNone /\ sseek t = true /\ spos t = 5 /\ inodes (wd s) (sino t) = [7; 8; 9]
  /\ match fwrite true s (Some h) (BBytes [1; 2; 3]) 2 with Ok (s', r) => inodes (wd s') (sino t) = [7; 8; 9; 0; 0; 1; 2] /\ r = (2, 5) | _ => False end.
Proof.
  exists (MkSt (MkW [([97], 3%nat)] (fun i => if Nat.eqb i 3 then [7; 8; 9] else []) 4 [] [MkS 3 5 true true false true false LNone true]) [Live (Some 0%nat)]), 0%nat, 0%nat, (MkS 3 5 true true false true false LNone true).
  vm_compute. repeat split; reflexivity.
Qed.

(** Seeking by an offset that an int holds, then telling. The full claim (any offset) is refuted below. *)
Theorem C63_seek_tell_partial : forall s h k t off origin, isOpen s h k t -> sseek t = true -> - two31 <= off <= INT_MAX -> (origin = 0 \/ origin = 1 \/ origin = 2) ->
  let pos := (if origin =? 0 then 0 else if origin =? 1 then spos t else Z.of_nat (length (inodes (wd s) (sino t)))) + off in
  0 <= pos ->
  exists s', fseek true s (Some h) off origin = Ok (s', 0) /\ ftell true s' (Some h) = Ok (pos, 0) /\ inodes (wd s') = inodes (wd s).
Proof.
  intros s h k t off origin O K R G pos P. destruct (seek_ok s h k t off origin O K R G P) as (s' & E & O' & I & _). exists s'. split; [exact E|]. split; [|exact I].
  exact (tell_ok s' h k _ O' eq_refl P).
Qed.
Print Assumptions C63_seek_tell_partial.
Example C63_seek_case : exists s, isOpen s 0 0 (MkS 3 5 true false false true false LNone true) /\ fseek true s (Some 0%nat) (-2) 1 <> UB.
Proof. exists (MkSt (MkW [] (fun _ => []) 4 [] [MkS 3 5 true false false true false LNone true]) [Live (Some 0%nat)]). split; [vm_compute; auto | vm_compute; discriminate]. Qed.

(** fseek(f, 0x100000000, .begin) succeeds and goes to the start: the offset is cut to an int. *)
Theorem C63_seek_tell_refuted : exists s h k t off s', isOpen s h k t /\ sseek t = true /\ off = 4294967296 /\ fseek true s (Some h) off 0 = Ok (s', 0) /\ ftell true s' (Some h) = Ok (0, 0).
Proof.
  exists (MkSt (MkW [] (fun _ => []) 4 [] [MkS 3 5 true false false true false LNone true]) [Live (Some 0%nat)]), 0%nat, 0%nat, (MkS 3 5 true false false true false LNone true), 4294967296.
  eexists. split; [vm_compute; auto|]. split; [reflexivity|]. split; [reflexivity|]. split; vm_compute; reflexivity.
Qed.
Print Assumptions C63_seek_tell_refuted.

(** No sequence of operations makes the C library use a closed stream or a null name or overrun a buffer, with file access or
    without, as long as the script passes no null name, leaves the standard streams open and opens no file both ways. *)
Theorem C63_no_bad_call_partial : forall en d f n e ops, Forall careful ops -> run en (init d f n e) ops <> UB.
Proof. exact careful_no_ub. Qed.
Print Assumptions C63_no_bad_call_partial.
Example C63_no_bad_call_case : Forall careful [OOpen (Some [97]) [119] true; OWrite (Some 3%nat) (BBytes [1]) 1; OClose (Some 3%nat) true; OClose (Some 3%nat) true; ODrop 3 true; OStd 1; OFprint (Some 1%nat) [65] 1; OPrint [66] 1]
  /\ match run true (init [] (fun _ => []) 3 []) [OOpen (Some [97]) [119] true; OWrite (Some 3%nat) (BBytes [1]) 1; OClose (Some 3%nat) true; OClose (Some 3%nat) true; ODrop 3 true; OStd 1; OFprint (Some 1%nat) [65] 1; OPrint [66] 1]
     with Ok (s, outs) => nth_error outs 3 = Some (RCode 5) /\ inodes (wd s) 1 = [65; 66] | _ => False end.
Proof.
  split; [|vm_compute; auto]. repeat constructor; cbn [careful]; try discriminate; try (vm_compute; discriminate); try lia. intros [H | []]; discriminate.
Qed.

(** The four ways out of that theorem: closing stdin() twice, printing after closing stdout(), a null name, reading right after writing. *)
Theorem C63_careless_refuted :
  run true (init [] (fun _ => []) 3 []) [OStd 0; OClose (Some 0%nat) true; OStd 0; OClose (Some 0%nat) true] = UB /\
  run true (init [] (fun _ => []) 3 []) [OStd 1; OClose (Some 1%nat) true; OPrint [65] 1] = UB /\
  run true (init [] (fun _ => []) 3 []) [OOpen None [114] true] = UB /\
  run true (init [] (fun _ => []) 3 []) [OOpen (Some [97]) [119; 43] true; OWrite (Some 3%nat) (BBytes [1]) 1; ORead (Some 3%nat) (BBytes [0]) 1] = UB.
Proof. repeat split; vm_compute; reflexivity. Qed.
Print Assumptions C63_careless_refuted.

(** A closed file refuses everything, changes nothing, and stays closed whatever else the script does. *)
Theorem C63_closed_refuses : forall en s h ops s' rs o,
  (3 <= h)%nat -> nth_error (objs s) h = Some (Live None) -> (forall ok, ~ In (ODrop h ok) ops) -> run en s ops = Ok (s', rs) -> onFile h o ->
  exists r, step en s' o = Ok (s', r) /\ refuses h o r.
Proof. intros en s h ops s' rs o H C N R F. exact (closed_refuses en s' h o (run_same en h ops s s' rs H N R C) F). Qed.
Print Assumptions C63_closed_refuses.
Theorem C63_close_closes : forall s h k t ok, isOpen s h k t -> exists s' r, fclose true s (Some h) ok = Ok (s', r) /\ nth_error (objs s') h = Some (Live None).
Proof.
  intros s h k t ok O. unfold fclose, rtlfclose. rewrite (getObj_open _ _ _ _ O). cbn [bind]. unfold cfclose. rewrite (getStream_open _ _ _ _ O). cbn [bind].
  do 2 eexists. split; [reflexivity|]. cbn [objs]. apply setn_same. destruct O as (O & _). eapply nth_lt; eauto.
Qed.
Print Assumptions C63_close_closes.
Example C63_closed_case : exists s, nth_error (objs s) 3 = Some (Live None) /\ onFile 3 (ORead (Some 3%nat) (BBytes [1]) 1) /\ run true s [OOpen (Some [97]) [119] true; OSeek (Some 4%nat) 1 0] <> UB.
Proof. exists (MkSt (wd (init [] (fun _ => []) 3 [])) [Live None; Live None; Live None; Live None]). vm_compute. repeat split; discriminate. Qed.

(** Releasing the last reference to a file closes its stream, and only that one; the standard streams stay open. *)
Theorem C63_drop_closes : forall s h k t ok, isOpen s h k t -> (3 <= h)%nat ->
  exists s' t', dropFile s h ok = Ok s' /\ nth_error (streams (wd s')) k = Some t' /\ sopen t' = false /\ (forall j, j <> k -> nth_error (streams (wd s')) j = nth_error (streams (wd s)) j)
    /\ inodes (wd s') = inodes (wd s) /\ dirs (wd s') = dirs (wd s) /\ nth_error (objs s') h = Some Gone.
Proof.
  intros s h k t ok O H. unfold dropFile. replace (Nat.ltb h 3) with false by (symmetry; apply Nat.ltb_ge; exact H). rewrite (getObj_open _ _ _ _ O). cbn [bind]. unfold cfclose. rewrite (getStream_open _ _ _ _ O). cbn [bind].
  destruct O as (O1 & O2 & _). do 2 eexists. split; [reflexivity|]. cbn [wd objs streams setStream inodes dirs]. split; [apply setn_same; eapply nth_lt; eauto|]. split; [reflexivity|].
  split; [intros j J; apply setn_other; auto|]. split; [reflexivity|]. split; [reflexivity|]. apply setn_same. eapply nth_lt; eauto.
Qed.
Print Assumptions C63_drop_closes.
Theorem C63_drop_std : forall s h ok, (h < 3)%nat -> dropFile s h ok = Ok s.
Proof. intros s h ok H. unfold dropFile. replace (Nat.ltb h 3) with true by (symmetry; apply Nat.ltb_lt; exact H). reflexivity. Qed.
Print Assumptions C63_drop_std.
Example C63_drop_case : exists s, isOpen s 3 0 (MkS 3 5 true false false true false LNone true).
Proof. exists (MkSt (MkW [] (fun _ => []) 4 [] [MkS 3 5 true false false true false LNone true]) [Live None; Live None; Live None; Live (Some 0%nat)]). vm_compute. auto. Qed.

(** Any value without pointers is read and written like an array of its bytes; a value with pointers is refused, and a null
    file or a null value moves nothing. *)
Theorem C63_values : forall en s f l lim,
  fread en s f (BValue false l) lim = fread en s f (BBytes l) lim /\ fwrite en s f (BValue false l) lim = fwrite en s f (BBytes l) lim /\
  (forall h, fread en s (Some h) (BValue true l) lim = Ok (s, ([], 0, 3)) /\ fwrite en s (Some h) (BValue true l) lim = Ok (s, (0, 3)) /\
     fread en s (Some h) BNull lim = Ok (s, ([], 0, 0)) /\ fwrite en s (Some h) BNull lim = Ok (s, (0, 0))) /\
  (forall b off origin ok, fread en s None b lim = Ok (s, ([], 0, 4)) /\ fwrite en s None b lim = Ok (s, (0, 4)) /\ fclose en s None ok = Ok (s, 4) /\ fseek en s None off origin = Ok (s, 4)
     /\ ftell en s None = Ok (0, 4) /\ feof en s None = Ok true /\ fflush s None = Ok (s, 4) /\ freadall en s None lim = Ok (s, ([], 4))).
Proof. intros. repeat split. Qed.
Print Assumptions C63_values.

(** In the sandbox (file access disabled) a script sees the same whatever files and environment variables there are, no
    file is changed but what stdout is connected to, and the C library is never misused, whatever the script does. *)
Theorem C63_sandbox : forall ops d1 f1 n1 e1 d2 f2 n2 e2,
  match run false (init d1 f1 n1 e1) ops, run false (init d2 f2 n2 e2) ops with
  | Ok (s1, x1), Ok (s2, x2) => x1 = x2 /\ dirs (wd s1) = d1 /\ forall i, i <> 1%nat -> inodes (wd s1) i = f1 i
  | Err a, Err b => a = b
  | _, _ => False
  end.
Proof. exact sandbox_thm. Qed.
Print Assumptions C63_sandbox.
Example C63_sandbox_case : match run false (init [([97], 3%nat)] (fun i => if Nat.eqb i 3 then [1; 2] else []) 4 [([80], [81])])
    [OOpen (Some [97]) [114] true; OGetenv (Some [80]); OStd 1; OWrite (Some 1%nat) (BBytes [65]) 1; OFlush (Some 1%nat); ORemove (Some [97]) true; OPrint [66] 1]
  with Ok (s, outs) => outs = [RFile None 4; RStr None; RFile (Some 1%nat) 0; RCount 0 5; RCode 0; RCode 5; RCount 1 0] /\ inodes (wd s) 3 = [1; 2] /\ inodes (wd s) 1 = [66] | _ => False end.
Proof. vm_compute. repeat split; reflexivity. Qed.

(** The bytes of a value, put back, give the value; other sizes and values with pointers are refused and left alone. *)
Theorem C64_bytes_roundtrip_partial : forall p l p' l', l <> [] -> Z.of_nat (length l) <= 2147483392 ->
  tobytes (Some (p, l)) = Ok l /\
  frombytes (Some (p', l')) l =
    Ok (if (length l' =? length l)%nat then if p' then (Some (p', l'), 3) else (Some (p', l), 0) else (Some (p', l'), 2)).
Proof.
  intros p l p' l' N L. split; [apply tobytes_ok; auto|]. apply frombytes_ok; auto. unfold size_ok, INT_MAX, two31. lia.
Qed.
Print Assumptions C64_bytes_roundtrip_partial.
Example C64_bytes_case : tobytes (Some (false, [1; 2; 3; 4])) = Ok [1; 2; 3; 4] /\ frombytes (Some (false, [9; 9; 9; 9])) [1; 2; 3; 4] = Ok (Some (false, [1; 2; 3; 4]), 0).
Proof. split; reflexivity. Qed.

(** A value of no size (an empty struct) has no bytes to point to: tobytes stops the program with an index error. *)
Theorem C64_empty_value_refuted : exists p, tobytes (Some (p, [])) = Err EIndex /\ frombytes (Some (false, [])) [] = Err EIndex.
Proof. exists false. split; reflexivity. Qed.
Print Assumptions C64_empty_value_refuted.

(** A broken-down time of the C library, seen as a DateTime, has months and days counted from 1 and gives the same
    broken-down time back; and so does a DateTime. *)
Theorem C64_time_roundtrip : forall t, proper t -> exists d, rtlConvToDateTime t = Ok d /\ rtlConvFromDateTime d = Ok t
  /\ 1 <= month d <= 12 /\ year d = tm_year t + 1900 /\ 1 <= dayOfWeek d <= 7 /\ 1 <= dayOfYear d <= 366 /\ isDST d = (tm_isdst t =? 1).
Proof. exact tm_roundtrip. Qed.
Print Assumptions C64_time_roundtrip.
Theorem C64_datetime_roundtrip : forall d, fits d -> in32 (month d) -> in32 (year d) -> in32 (dayOfWeek d) -> in32 (dayOfYear d) ->
  exists t, rtlConvFromDateTime d = Ok t /\ rtlConvToDateTime t = Ok d.
Proof. exact dt_roundtrip. Qed.
Print Assumptions C64_datetime_roundtrip.
Example C64_time_case : proper (MkTm 59 58 23 31 11 126 4 364 1) /\ fits (MkDt 59 58 23 31 12 2026 5 365 true).
Proof. unfold proper, fits, in32, INT_MIN, INT_MAX, two31. cbn. repeat split; try lia; auto. Qed.

(** gmtime and localtime dereference the null pointer the C library returns for a time too far away; a year near the largest
    int overflows; mktime takes the year 4294969272 for 1976 and overflows on the smallest month. *)
Theorem C64_time_refuted :
  (forall ctime t, ctime t = None -> rtlgmtime ctime t = UB) /\
  (forall ctime t d, ctime t = Some d -> tm_year d = INT_MAX -> in32 (tm_mon d + 1) -> rtlgmtime ctime t = UB) /\
  rtlConvFromDateTime (MkDt 0 0 0 1 1 4294969272 1 1 false) = rtlConvFromDateTime (MkDt 0 0 0 1 1 1976 1 1 false) /\
  rtlConvFromDateTime (MkDt 0 0 0 1 INT64_MIN 1976 1 1 false) = UB.
Proof.
  split; [intros c t H; unfold rtlgmtime; rewrite H; reflexivity|]. split; [|split; vm_compute; reflexivity].
  intros c t d H Y M. unfold rtlgmtime. rewrite H. unfold rtlConvToDateTime. rewrite (add32_ok _ _ M). cbn [bind]. rewrite Y. reflexivity.
Qed.
Print Assumptions C64_time_refuted.

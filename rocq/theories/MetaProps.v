(* C25: the sandbox's meta file. *)
From Coq Require Import String Ascii List Arith NArith ZArith Bool Lia.
From Flocq Require Import IEEE754.BinarySingleNaN.
From Verif Require Import NumModel GradeModel GradeSpec MetaModel MetaSpec MetaProofs.
Import ListNotations.
Local Open Scope string_scope.

(* Every file is a sequence of fields, or has a first line that is none. *)
Theorem C25_every_file : forall content, exists ls, lines_of content ls /\
  ((exists fs, Forall2 is_field ls fs) \/
   (exists pre l post fs, ls = (pre ++ l :: post)%list /\ Forall2 is_field pre fs /\ not_field l)).
Proof. intros c. exists (raw_lines c). split; [apply lines_exist|apply scan_cases]. Qed.
Print Assumptions C25_every_file.

(* A Karel program that ran out of instructions. *)
Definition karel_limit (lang : string) (exit : Z) : Prop := (lang = "kj" \/ lang = "kp") /\ exit = 1%Z.
Definition memory_exceeded (limit : option Z) (lang : string) (exit mem : Z) (oom : bool) : Prop :=
  exists lim, limit = Some lim /\ (0 < lim)%Z /\ ((lim < mem)%Z \/ lang = "java" /\ exit <> 0%Z /\ oom = true).

Lemma eqb_or a b x : ((x =? a) || (x =? b)) = true <-> x = a \/ x = b.
Proof. rewrite orb_true_iff, !String.eqb_eq. tauto. Qed.
Lemma signal_verdict_cases s :
  (signal_verdict s = RFE <-> s = "SIGSYS") /\ (signal_verdict s = TLE <-> s = "SIGALRM" \/ s = "SIGXCPU") /\
  (signal_verdict s = OLE <-> s = "SIGXFSZ") /\ In (signal_verdict s) [RFE; RTE; TLE; OLE].
Proof.
  unfold signal_verdict.
  destruct (String.eqb_spec s "SIGSYS") as [->|N0]; [cbn; intuition discriminate|].
  destruct ((s =? "SIGILL") || _ || _ || _ || _ || _ || _) eqn:E1.
  - assert (X : s <> "SIGALRM" /\ s <> "SIGXCPU" /\ s <> "SIGXFSZ").
    { split; [|split]; intros ->; discriminate E1. }
    cbn. intuition discriminate.
  - destruct ((s =? "SIGALRM") || (s =? "SIGXCPU")) eqn:E2.
    + apply eqb_or in E2. assert (s <> "SIGXFSZ") by (destruct E2; subst; discriminate). cbn. intuition discriminate.
    + assert (X : ~ (s = "SIGALRM" \/ s = "SIGXCPU")) by (rewrite <- eqb_or, E2; discriminate).
      destruct (String.eqb_spec s "SIGXFSZ") as [->|N3]; cbn; intuition discriminate.
Qed.

(* The verdict of a file of fields. *)
Theorem C25_verdict :
  forall pf limit lang content oom allow ls fs,
  lines_of content ls -> Forall2 is_field ls fs ->
  let (m, err) := parseMetaFile pf limit lang content oom allow in
  err = false /\ exit_of fs (d_exit m) /\ signal_of fs (d_signal m) /\
  exists mem, memory_of fs mem /\
  (memory_exceeded limit lang (d_exit m) mem oom -> d_verdict m = MLE /\ limit = Some (d_mem m)) /\
  (~ memory_exceeded limit lang (d_exit m) mem oom -> d_mem m = mem /\
     (d_verdict m = OK <-> d_signal m = None /\ (d_exit m = 0%Z \/ allow = true) /\ ~ karel_limit lang (d_exit m)) /\
     (d_verdict m = TLE <-> karel_limit lang (d_exit m) \/ d_signal m = Some "SIGALRM" \/ d_signal m = Some "SIGXCPU") /\
     (d_verdict m = RFE <-> ~ karel_limit lang (d_exit m) /\ d_signal m = Some "SIGSYS") /\
     (d_verdict m = OLE <-> ~ karel_limit lang (d_exit m) /\ d_signal m = Some "SIGXFSZ") /\
     In (d_verdict m) [OK; TLE; RFE; OLE; RTE]).
Proof.
  intros pf limit lang content oom allow ls fs HL HF. unfold parseMetaFile.
  rewrite (lines_of_raw _ _ HL). pose proof (scan_ok pf ls fs HF md0 []) as S. rewrite app_nil_r in S. rewrite S. cbn [scan_fields].
  pose proof (repr_apply pf fs [] md0 repr0) as R. cbn [app] in R. set (m0 := apply_fields pf md0 fs) in *. clearbody m0.
  destruct R as (R1 & R2 & R3 & R4).
  set (v1 := match d_signal m0 with Some s => signal_verdict s | None => if ((d_exit m0 =? 0)%Z || allow)%bool then OK else RTE end).
  set (v2 := if (((lang =? "kj") || (lang =? "kp")) && (d_exit m0 =? 1)%Z)%bool then TLE else v1).
  assert (KL : (((lang =? "kj") || (lang =? "kp")) && (d_exit m0 =? 1)%Z)%bool = true <-> karel_limit lang (d_exit m0)).
  { rewrite andb_true_iff, eqb_or, Z.eqb_eq. unfold karel_limit. tauto. }
  assert (TAB : (v2 = OK <-> d_signal m0 = None /\ (d_exit m0 = 0%Z \/ allow = true) /\ ~ karel_limit lang (d_exit m0)) /\
     (v2 = TLE <-> karel_limit lang (d_exit m0) \/ d_signal m0 = Some "SIGALRM" \/ d_signal m0 = Some "SIGXCPU") /\
     (v2 = RFE <-> ~ karel_limit lang (d_exit m0) /\ d_signal m0 = Some "SIGSYS") /\
     (v2 = OLE <-> ~ karel_limit lang (d_exit m0) /\ d_signal m0 = Some "SIGXFSZ") /\
     In v2 [OK; TLE; RFE; OLE; RTE]).
  { unfold v2. destruct (((lang =? "kj") || (lang =? "kp")) && (d_exit m0 =? 1)%Z)%bool.
    - assert (K : karel_limit lang (d_exit m0)) by (apply KL; auto). cbn. intuition discriminate.
    - assert (K : ~ karel_limit lang (d_exit m0)) by (rewrite <- KL; discriminate). unfold v1.
      destruct (d_signal m0) as [s|].
      + destruct (signal_verdict_cases s) as (C1 & C2 & C3 & C4).
        assert (SE : forall x, Some s = Some x <-> s = x) by (intros; split; [intros H; injection H; auto|congruence]).
        rewrite !SE, C1, C2, C3. split; [|cbn in *; intuition (auto; discriminate)].
        split; [intros X; rewrite X in C4; cbn in C4; intuition discriminate|intros [X _]; discriminate X].
      + destruct ((d_exit m0 =? 0)%Z || allow)%bool eqn:E.
        * apply orb_true_iff in E. rewrite Z.eqb_eq in E. cbn. intuition discriminate.
        * apply orb_false_iff in E. destruct E as [E1 E2]. apply Z.eqb_neq in E1. cbn. intuition (try discriminate; congruence). }
  assert (EX : match limit with Some lim => ((0 <? lim)%Z && ((lim <? d_mem m0)%Z || (lang =? "java") && negb (d_exit m0 =? 0)%Z && oom))%bool | None => false end = true
               <-> memory_exceeded limit lang (d_exit m0) (d_mem m0) oom).
  { unfold memory_exceeded. destruct limit as [lim|].
    - rewrite andb_true_iff, orb_true_iff, !andb_true_iff, negb_true_iff, Z.eqb_neq, !Z.ltb_lt, String.eqb_eq.
      split; [intros [A B]; exists lim; intuition|intros (l & E & A & B)]. injection E as <-. intuition.
    - split; [discriminate|]. intros (l & E & _). discriminate E. }
  unfold judge. fold v1. fold v2.
  destruct limit as [lim|].
  - destruct (_ && (_ || _))%bool.
    + assert (X := proj1 EX eq_refl). cbn [d_exit d_signal d_mem d_verdict]. split; [auto|]. split; [auto|]. split; [auto|]. exists (d_mem m0). split; [auto|].
      split; [auto|]. intros Y. contradiction.
    + cbn [d_exit d_signal d_mem d_verdict]. split; [auto|]. split; [auto|]. split; [auto|]. exists (d_mem m0). split; [auto|].
      split; [intros Y; apply EX in Y; discriminate Y|]. intros _. split; [auto|exact TAB].
  - cbn [d_exit d_signal d_mem d_verdict]. split; [auto|]. split; [auto|]. split; [auto|]. exists (d_mem m0). split; [auto|].
    split; [intros Y; apply EX in Y; discriminate Y|]. intros _. split; [auto|exact TAB].
Qed.
Print Assumptions C25_verdict.

(* The times and the system call reported are those of the file. *)
Theorem C25_times :
  forall pf limit lang content oom allow ls fs,
  lines_of content ls -> Forall2 is_field ls fs ->
  let m := fst (parseMetaFile pf limit lang content oom allow) in
  time_of pf fzero "time" fs (d_time m) /\ time_of pf fzero "time-sys" fs (d_sys m) /\
  time_of pf fzero "time-wall" fs (d_wall m) /\ syscall_of fs (d_syscall m).
Proof.
  intros pf limit lang content oom allow ls fs HL HF. unfold parseMetaFile.
  rewrite (lines_of_raw _ _ HL). pose proof (scan_ok pf ls fs HF md0 []) as S. rewrite app_nil_r in S. rewrite S. cbn [scan_fields].
  pose proof (repr2_apply pf fs [] md0 (repr2_0 pf)) as R. cbn [app] in R. set (m0 := apply_fields pf md0 fs) in *. clearbody m0.
  unfold judge. destruct limit; [destruct (_ && (_ || _))%bool|]; exact R.
Qed.
Print Assumptions C25_times.

(* A file with a line that is no field: judge error, and an error is returned. *)
Theorem C25_malformed :
  forall pf limit lang content oom allow pre l post fs,
  lines_of content (pre ++ l :: post) -> Forall2 is_field pre fs -> not_field l ->
  let (m, err) := parseMetaFile pf limit lang content oom allow in
  err = true /\ d_verdict m = JE /\ exit_of fs (d_exit m).
Proof.
  intros pf limit lang content oom allow pre l post fs HL HF HN. unfold parseMetaFile.
  rewrite (lines_of_raw _ _ HL), (scan_ok pf pre fs HF md0), scan_bad by auto.
  pose proof (repr_apply pf fs [] md0 repr0) as (R1 & _ & _ & R4). auto.
Qed.
Print Assumptions C25_malformed.

(* Whatever the file holds: the verdict is one a process can end with (never
   WA, PA, AC or CE), so grading never sees anything else; JE exactly with an
   error; and with a positive limit the memory reported without error never
   exceeds it. *)
Theorem C25_run_verdicts :
  forall pf limit lang out oom,
  let (m, err) := Run pf limit lang out oom in
  In (d_verdict m) [JE; MLE; RFE; RTE; TLE; OLE; OK] /\ process_verdict (d_verdict m) /\
  (d_verdict m = JE <-> err = true) /\
  (err = false -> (0 < limit)%Z -> (d_mem m <= limit)%Z).
Proof.
  intros pf limit lang out oom.
  assert (A : forall m err, (let (m, err) := Run pf limit lang out oom in (m, err)) = (m, err) ->
    In (d_verdict m) [JE; MLE; RFE; RTE; TLE; OLE; OK] /\ (d_verdict m = JE <-> err = true) /\
    (err = false -> (0 < limit)%Z -> (d_mem m <= limit)%Z)).
  { intros m err. unfold Run. destruct out as [| |c].
    - intros H; injection H as <- <-. cbn. intuition discriminate.
    - intros H; injection H as <- <-. cbn. intuition discriminate.
    - destruct (C25_every_file c) as (ls & HL & [(fs & HF)|(pre & l & post & fs & -> & HF & HN)]).
      + pose proof (C25_verdict pf (Some limit) lang c oom (lang =? "c") ls fs HL HF) as V.
        destruct (parseMetaFile _ _ _ _ _ _) as [m0 e0]. intros H; injection H as <- <-.
        destruct V as (V1 & _ & _ & mem & _ & V2 & V3).
        assert (DEC : memory_exceeded (Some limit) lang (d_exit m0) mem oom \/ ~ memory_exceeded (Some limit) lang (d_exit m0) mem oom).
        { unfold memory_exceeded.
          destruct (Z_lt_dec 0 limit) as [L|L]; [|right; intros (x & E & X & _); injection E as <-; lia].
          destruct (Z_lt_dec limit mem) as [M|M]; [left; exists limit; auto|].
          destruct (string_dec lang "java") as [J|J]; [|right; intros (x & E & _ & [X|(X & _)]); [injection E as <-; lia|congruence]].
          destruct (Z.eq_dec (d_exit m0) 0) as [Z0|Z0]; [right; intros (x & E & _ & [X|(_ & X & _)]); [injection E as <-; lia|congruence]|].
          destruct oom; [left; exists limit; split; [auto|split; [auto|right; auto]]|right; intros (x & E & _ & [X|(_ & _ & X)]); [injection E as <-; lia|discriminate X]]. }
        destruct DEC as [D|D].
        * destruct (V2 D) as [-> E]. injection E as E. cbn. split; [auto|]. split; [split; [discriminate|congruence]|]. intros. lia.
        * destruct (V3 D) as (E & _ & _ & _ & _ & I). split; [cbn in *; intuition|].
          split; [split; [intros X; rewrite X in I; cbn in I; intuition discriminate|congruence]|].
          intros _ L. rewrite E. destruct (Z_lt_dec limit mem) as [M|M]; [|lia]. exfalso. apply D. exists limit. auto.
      + pose proof (C25_malformed pf (Some limit) lang c oom (lang =? "c") pre l post fs HL HF HN) as V.
        destruct (parseMetaFile _ _ _ _ _ _) as [m0 e0]. intros H; injection H as <- <-. destruct V as (-> & -> & _). cbn. intuition discriminate. }
  destruct (Run pf limit lang out oom) as [m err]. destruct (A m err eq_refl) as (X & Y & Z). split; auto. split; auto.
  unfold process_verdict. cbn in *. intuition congruence.
Qed.
Print Assumptions C25_run_verdicts.

(* Compilation succeeds (the verdict for which Grade goes on) only when a meta
   file without signal and with exit status 0 was written, and for Java the
   expected class exists. *)
Theorem C25_compile_ok :
  forall pf lang out class_exists can_write m,
  Compile pf lang out class_exists can_write = (m, false) -> d_verdict m = OK ->
  exists content ls fs, out = CMetaFile content /\ lines_of content ls /\ Forall2 is_field ls fs /\
  d_signal m = None /\ d_exit m = 0%Z /\ exit_of fs 0 /\ signal_of fs None /\ (lang = "java" -> class_exists = true).
Proof.
  intros pf lang out ce cw m. unfold Compile. destruct out as [| |c]; try (intros H; injection H as <-; discriminate).
  destruct (C25_every_file c) as (ls & HL & [(fs & HF)|(pre & l & post & fs & -> & HF & HN)]).
  - pose proof (C25_verdict pf None lang c false false ls fs HL HF) as V.
    destruct (parseMetaFile _ _ _ _ _ _) as [m0 e0]. destruct V as (V1 & VE & VS & mem & _ & _ & V3).
    destruct V3 as (_ & V3 & _); [intros (x & E & _); discriminate E|].
    destruct ((lang =? "java") && veqb (d_verdict m0) OK && negb ce)%bool eqn:E; [intros H; injection H as <- _; discriminate|].
    intros H; injection H as <- _. intros HO. destruct (proj1 V3 HO) as (A & [B|B] & _); [|discriminate B].
    exists c, ls, fs. split; auto. split; auto. split; auto. split; auto. split; auto. 
    split; [rewrite B in VE; exact VE|]. split; [rewrite A in VS; exact VS|].
    intros ->. rewrite HO in E. cbn in E. destruct ce; [auto|discriminate E].
  - pose proof (C25_malformed pf None lang c false false pre l post fs HL HF HN) as V.
    destruct (parseMetaFile _ _ _ _ _ _) as [m0 e0]. destruct V as (-> & V & _). rewrite V.
    rewrite andb_false_r. cbn. intros H. discriminate H.
Qed.
Print Assumptions C25_compile_ok.

(* Numbers in the file: decimal numerals with an optional sign, saturated to 64
   bits. *)
Lemma value_acc l : Forall is_digit l -> forall a, digits (string_of_list_ascii l) a = Some (a * 10 ^ Z.of_nat (List.length l) + value l)%Z.
Proof.
  induction 1 as [|c l [H1 H2] HL IH]; intros a; cbn [string_of_list_ascii digits value List.length].
  - f_equal. cbn. lia.
  - unfold digit. destruct (Z.leb_spec 0 (Z.of_N (N_of_ascii c) - 48)); [|lia].
    destruct (Z.leb_spec (Z.of_N (N_of_ascii c) - 48) 9); [|lia]. cbn [andb]. rewrite IH. f_equal.
    rewrite Nat2Z.inj_succ, Z.pow_succ_r by lia. ring.
Qed.
Theorem C25_numbers : forall l, Forall is_digit l -> l <> [] ->
  let s := string_of_list_ascii l in
  parse_int s = Z.min (2 ^ 63 - 1) (value l) /\ parse_int ("+" ++ s) = Z.min (2 ^ 63 - 1) (value l) /\
  parse_int ("-" ++ s) = Z.max (- 2 ^ 63) (- value l).
Proof.
  intros l HD HN s. assert (V : digits s 0 = Some (value l)) by (unfold s; rewrite value_acc by auto; f_equal; lia).
  assert (P : (0 <= value l)%Z).
  { clear HN s V. induction HD as [|c l [H1 H2] HL IH]; [cbn; lia|]. cbn [value].
    assert (0 <= 10 ^ Z.of_nat (List.length l))%Z by (apply Z.pow_nonneg; lia).
    assert (0 <= (Z.of_N (N_of_ascii c) - 48) * 10 ^ Z.of_nat (List.length l))%Z by (apply Z.mul_nonneg_nonneg; lia). lia. }
  assert (NE : s <> "") by (unfold s; destruct l; [congruence|discriminate]).
  unfold clamp64. split; [|split].
  - assert (HC : exists c t, s = String c t /\ is_digit c) by (unfold s; destruct HD as [|c l]; [congruence|]; eexists _, _; split; [reflexivity|auto]).
    destruct HC as (c & t & E & HC). rewrite E in *. unfold parse_int.
    destruct (Ascii.eqb_spec c "-") as [->|]; [destruct HC as [X _]; cbn in X; lia|].
    destruct (Ascii.eqb_spec c "+") as [->|]; [destruct HC as [X _]; cbn in X; lia|].
    rewrite V. unfold clamp64. change (2 ^ 63)%Z with 9223372036854775808%Z. lia.
  - unfold parse_int. cbn [append].
    change (Ascii.eqb "+" "-") with false. change (Ascii.eqb "+" "+") with true. cbv iota. destruct s as [|c t]; [congruence|]. rewrite V. unfold clamp64. change (2 ^ 63)%Z with 9223372036854775808%Z. lia.
  - unfold parse_int. cbn [append]. change (Ascii.eqb "-" "-") with true. cbv iota. destruct s as [|c t]; [congruence|]. rewrite V. unfold clamp64. change (2 ^ 63)%Z with 9223372036854775808%Z. lia.
Qed.
Print Assumptions C25_numbers.

Definition nl (ls : list string) : string := fold_right (fun l s => l ++ String LF s) "" ls.
Definition no_times : string -> float64 := fun _ => fzero.
Example C25_example :
  let c := nl ["status:1"; "time:1000"; "mem:1024"; "signal:SIGSEGV"; "x-custom:"; "status:0"] in
  (exists ls fs, lines_of c ls /\ Forall2 is_field ls fs) /\
  d_verdict (fst (Run no_times 2048 "cpp" (MetaFile c) false)) = RTE /\
  d_verdict (fst (Run no_times 1000 "cpp" (MetaFile c) false)) = MLE /\
  d_verdict (fst (Run no_times 2048 "cpp" (MetaFile (nl ["status:0"; "mem:7"])) false)) = OK.
Proof.
  cbv zeta. split; [|split; [reflexivity|split; reflexivity]].
  exists ["status:1"; "time:1000"; "mem:1024"; "signal:SIGSEGV"; "x-custom:"; "status:0"],
         [("status", "1"); ("time", "1000"); ("mem", "1024"); ("signal", "SIGSEGV"); ("x-custom", ""); ("status", "0")].
  assert (NL : forall l, index_lf l 0 = None -> ~ has_char LF l).
  { intros l. generalize 0%nat. induction l as [|c l IH]; intros i H; [unfold has_char; cbn; tauto|]. rewrite has_cons. cbn in H.
    destruct (Ascii.eqb_spec c LF); [discriminate H|]. specialize (IH _ H). intuition. }
  split.
  - repeat (apply lo_cons; [apply NL; reflexivity|]). apply lo_nil.
  - assert (F : forall l k v, (slen l < 65536)%N -> l = k ++ String ":" v -> ends_cr l = false -> split_colon k = None -> is_field l (k, v)).
    { intros l k v H1 -> H2 H3. split; auto. split; [|apply split_colon_none; auto]. right. split; auto. cbn [fst snd]. intros p E.
      rewrite E in H2. clear - H2. induction p as [|c p IH]; [discriminate H2|]. apply IH. cbn in H2. destruct (p ++ String CR "") eqn:E; [destruct p; discriminate E|].
      exact H2. }
    repeat (constructor; [apply F; reflexivity|]). constructor.
Qed.

(* False of the code: that OK means the process reported a successful exit.  A
   program in C is OK although no exit status was written at all (an empty meta
   file, when the sandbox died before writing it) or although it is not 0; and in
   every language an unreadable status counts as 0. *)
Theorem C25_ok_means_exit_zero_refuted :
  (exists content, d_verdict (fst (Run no_times 1024 "c" (MetaFile content) false)) = OK /\ content = "") /\
  (exists content, d_verdict (fst (Run no_times 1024 "c" (MetaFile content) false)) = OK /\ content = nl ["status:1"]) /\
  (exists content, d_verdict (fst (Run no_times 1024 "cpp" (MetaFile content) false)) = OK /\ content = nl ["status:killed"]).
Proof. split; [|split]; eexists; (split; [|reflexivity]); reflexivity. Qed.
Print Assumptions C25_ok_means_exit_zero_refuted.

(* ---- isJavaMLE ---- *)
(* It answers true only if the error file names the exception, and always when
   it is named in a file whose lines are below 4096 bytes. *)
Theorem C25_java_oom_sound : forall s, isJavaMLE (Some s) = true -> exists a b, s = a ++ "java.lang.OutOfMemoryError" ++ b.
Proof. intros s H. apply contains_spec. eapply java_mle_sound. exact H. Qed.
Print Assumptions C25_java_oom_sound.
Theorem C25_java_oom_complete : forall s ls l a b, lines_of s ls -> (forall l', In l' ls -> (String.length l' < 4096)%nat) ->
  In l ls -> l = a ++ "java.lang.OutOfMemoryError" ++ b -> isJavaMLE (Some s) = true.
Proof.
  intros s ls l a b HL HF HI E. unfold isJavaMLE. eapply java_mle_complete; eauto; [apply Forall_forall; auto|].
  exists l. split; auto. apply contains_spec. eauto.
Qed.
Print Assumptions C25_java_oom_complete.
(* False of the code for longer lines: the name is missed when it straddles two
   pieces of 4096 bytes. *)
Fixpoint rep (n : nat) (s : string) : string := match n with O => s | S n' => String "x" (rep n' s) end.
Theorem C25_java_oom_long_line_refuted : exists s a b, s = a ++ "java.lang.OutOfMemoryError" ++ b /\ isJavaMLE (Some s) = false.
Proof.
  exists (rep 4090 "java.lang.OutOfMemoryError"), (rep 4090 ""), "". split; [vm_compute; reflexivity|vm_compute; reflexivity].
Qed.
Print Assumptions C25_java_oom_long_line_refuted.

(* ---- limits given to the sandbox ---- *)
Theorem C25_memory_hard_limit : forall limit, (0 < limit)%Z ->
  (hard_memory limit <= limit)%Z /\ (hard_memory limit <= 640 * 1048576)%Z /\ (0 < hard_memory limit)%Z /\
  (hard_memory limit = limit \/ (640 * 1048576 < limit)%Z).
Proof. intros limit H. unfold hard_memory, MiB. lia. Qed.
Print Assumptions C25_memory_hard_limit.
(* False of the code: a problem without memory limit (MemoryLimit <= 0, the case
   parseMetaFile treats as unlimited) is passed on as a limit of that many bytes,
   not 640 MiB; and the extra time for Java, 1000 nanoseconds, is less than the
   milliseconds in which the limit is passed. *)
Theorem C25_unlimited_memory_refuted : exists limit, (limit <= 0)%Z /\ hard_memory limit = limit.
Proof. exists (-1)%Z. split; [lia|reflexivity]. Qed.
Print Assumptions C25_unlimited_memory_refuted.
Theorem C25_java_extra_time_refuted : forall ms, (0 <= ms)%Z -> time_ms "java" (ms * 1000000) = ms /\ time_ms "cpp" (ms * 1000000) = ms.
Proof.
  intros ms H. unfold time_ms. cbn [String.eqb Ascii.eqb Bool.eqb]. split.
  - symmetry. apply (Z.quot_unique _ _ _ 1000); lia.
  - apply Z.quot_mul. lia.
Qed.
Print Assumptions C25_java_extra_time_refuted.

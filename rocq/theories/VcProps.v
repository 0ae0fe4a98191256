(* C87: the validator command. *)
From Coq Require Import List String Ascii ZArith NArith Bool QArith Qround Qabs Lia Lqa.
From Verif Require Import TokModel TokSpec ValModel ValSpec ValProps VcModel VcSpec VcProofs.
Import ListNotations.
Local Open Scope string_scope.

(* CalculateScore gives a score between 0 and 1. *)
Lemma loop_unit m P cmp : forall fuel ex co, let s := score (compare_loop m P cmp fuel ex co) in s = 0%Q \/ s = 1%Q.
Proof.
  induction fuel as [|fuel IH]; intros ex co; [left; reflexivity|]. cbn [compare_loop].
  destruct (Scan P m ex) as [ex' [e|]]; destruct (Scan P m co) as [co' [c|]].
  - destruct cmp as [eq|]; [|left; reflexivity]. destruct (eq e c); [apply IH|left; reflexivity].
  - destruct (Err ex'); destruct (Err co'); left; reflexivity.
  - destruct (Err ex'); destruct (Err co'); left; reflexivity.
  - destruct (Err ex'); destruct (Err co'); cbn; auto.
Qed.
Lemma score_unit f n p m name ex co : (0 <= score (CalculateScore f n p m name ex co))%Q /\ (score (CalculateScore f n p m name ex co) <= 1)%Q.
Proof.
  unfold CalculateScore. destruct (String.eqb name "literal" || String.eqb name "custom").
  - destruct (Scan _ m (new_scanner co)) as [co' [t|]]; [|split; discriminate]. destruct (p t) as [v|]; [|split; discriminate]. cbn [score].
    unfold rat_clamp. destruct (Qle_bool v 0) eqn:A; [split; discriminate|]. destruct (Qle_bool 1 v) eqn:B; [split; discriminate|].
    split; apply Qlt_le_weak; (apply Qnot_le_lt; intros X; apply Qle_bool_iff in X; congruence).
  - destruct (loop_unit m (if String.eqb name "token-numeric" then IsNumeric else IsNonWhitespace) (compare f n name)
       (S (List.length (List.concat (chunks ex)))) (new_scanner ex) (new_scanner co)) as [-> | ->]; split; discriminate.
Qed.

Lemma shown v : (0 <= v)%Q -> (v <= 1)%Q -> exists h, shows (printed (Float64 v)) h /\ (0 <= h <= 100)%Z /\
  (Qabs (inject_Z h / 100 - v) <= (1 # 200) + (1 # 2 ^ 53))%Q /\
  (Qabs (inject_Z h / 100 - Float64 v) <= 1 # 200)%Q /\ ((Qabs (inject_Z h - Float64 v * 100) == 1 # 2)%Q -> Z.even h = true).
Proof.
  intros A B. destruct (Float64_unit v A B) as (F1 & F2 & F3). destruct (printed_shows _ F1 F2) as (h & S & R & D & W).
  exists h. split; [exact S|]. split; [exact R|]. split; [|split; [exact D|exact W]].
  apply Qabs_Qle_condition in F3. apply Qabs_Qle_condition in D. apply Qabs_Qle_condition. lra.
Qed.

Section Props.
Variable T : Type.
Variable default_tolerance : T.
Variable parse_tolerance : string -> option T.
Variable num_eq : T -> bytes -> bytes -> bool.
Variable fold_eq : bytes -> bytes -> bool.
Variable parse : bytes -> option Q.
Variable maxTok : N.
Variable help_status : Z.
Variable open : string -> option reader.
Notation main := (main T default_tolerance parse_tolerance num_eq fold_eq parse maxTok help_status open).
Notation readable_all := (readable_all T parse_tolerance).

Lemma main_read os opts sep l : all_spelled os opts -> readable_all os -> (sep = ["--"] \/ sep = [] /\ match l with f :: _ => plain f | [] => True end) ->
  exists t, flag_parse T parse_tolerance help_status (defaults T default_tolerance) (opts ++ sep ++ l) =
      Datatypes.inr ({| validator := last_validator os ""; tolerance := t |}, l) /\
    match last_tolerance os None with None => t = default_tolerance | Some x => parse_tolerance x = Some t end.
Proof.
  intros A R S. destruct (flags_read T parse_tolerance help_status os opts A (defaults T default_tolerance) (sep ++ l) R) as (t & E & M).
  exists t. split; [|exact M]. rewrite E. destruct S as [->|(-> & S)]; [reflexivity|].
  destruct l as [|f l]; [reflexivity|]. cbn [List.app flag_parse]. rewrite (arg_plain f S). reflexivity.
Qed.

(* The options can be spelled in each way, in any order and repeatedly (the last one
   counts); the two files are compared as CalculateScore does with that validator and
   that tolerance; the score is printed, or the status is 1. *)
Theorem C87_run : forall os opts sep expected contestant,
  all_spelled os opts -> readable_all os -> (sep = ["--"] \/ sep = [] /\ plain expected) -> last_validator os "" <> "" ->
  exists t, match last_tolerance os None with None => t = default_tolerance | Some x => parse_tolerance x = Some t end /\
  main (opts ++ sep ++ [expected; contestant]) =
    match open expected, open contestant with
    | Some e, Some c =>
      let r := CalculateScore fold_eq (num_eq t) parse maxTok (last_validator os "") e c in
      match verr r with Some _ => (1%Z, "") | None => (0%Z, printed (Float64 (score r))) end
    | _, _ => (1%Z, "")
    end.
Proof.
  intros os opts sep e c A R S V. destruct (main_read os opts sep [e; c] A R S) as (t & E & M). exists t. split; [exact M|].
  unfold VcModel.main. rewrite E. cbn [validator tolerance]. apply String.eqb_neq in V. rewrite V.
  destruct (open e) as [x|]; [|reflexivity]. destruct (open c) as [y|]; reflexivity.
Qed.

(* Otherwise the status is 2. *)
Theorem C87_usage : forall os opts sep l,
  all_spelled os opts -> readable_all os -> (sep = ["--"] \/ sep = [] /\ match l with f :: _ => plain f | [] => True end) ->
  (last_validator os "" = "" \/ List.length l <> 2%nat -> main (opts ++ sep ++ l) = (2%Z, "")) /\
  (forall t l, parse_tolerance t = None -> main (opts ++ ["-tolerance"; t] ++ l) = (2%Z, "")) /\
  (main (opts ++ ["-validator"]) = (2%Z, "")) /\
  (forall n v l, arg_of n = Flag "v" v -> main (opts ++ n :: l) = (2%Z, "")).
Proof.
  intros os opts sep l A R S. split; [|split; [|split]].
  - intros H. destruct (main_read os opts sep l A R S) as (t & E & M). unfold VcModel.main. rewrite E. cbn [validator tolerance].
    destruct l as [|a [|b [|c l]]]; try reflexivity. destruct H as [->|H]; [reflexivity|]. exfalso. apply H. reflexivity.
  - intros t l' P. unfold VcModel.main. destruct (flags_read T parse_tolerance help_status os opts A (defaults T default_tolerance) (["-tolerance"; t] ++ l')%list R) as (x & E & M).
    rewrite E. cbn [List.app flag_parse]. change (arg_of "-tolerance") with (Flag "tolerance" None).
    cbn [String.eqb Ascii.eqb Bool.eqb orb]. unfold set_flag. cbn [String.eqb Ascii.eqb Bool.eqb]. rewrite P. reflexivity.
  - unfold VcModel.main. destruct (flags_read T parse_tolerance help_status os opts A (defaults T default_tolerance) ["-validator"] R) as (x & E & M).
    rewrite E. reflexivity.
  - intros n v l' H. unfold VcModel.main. destruct (flags_read T parse_tolerance help_status os opts A (defaults T default_tolerance) (n :: l')%list R) as (x & E & M).
    rewrite E. cbn [flag_parse]. rewrite H. reflexivity.
Qed.

(* Whatever the arguments and the files: something is printed only with status 0, and
   it is a number from 0.00 to 1.00; without one the status is 1, 2 or that of -h. *)
Theorem C87_output : forall args, let '(status, out) := main args in
  (out <> "" <-> exists h, shows out h /\ (0 <= h <= 100)%Z) /\ (out <> "" -> status = 0%Z) /\
  (out = "" -> status = 1%Z \/ status = 2%Z \/ status = help_status).
Proof.
  intros args.
  assert (X : (exists status, main args = (status, "") /\ (status = 1%Z \/ status = 2%Z \/ status = help_status)) \/
    exists v, (0 <= v)%Q /\ (v <= 1)%Q /\ main args = (0%Z, printed (Float64 v))).
  { unfold VcModel.main.
    assert (F : forall l st, match flag_parse T parse_tolerance help_status st l with Datatypes.inl s => s = 2%Z \/ s = help_status | _ => True end).
    { clear. fix IH 1. intros [|a l] st; [exact Logic.I|]. cbn [flag_parse]. destruct (arg_of a) as [| | |n v]; try exact Logic.I; [left; reflexivity|].
      destruct (String.eqb n "validator" || String.eqb n "tolerance").
      - destruct v as [v|].
        + destruct (set_flag T parse_tolerance st n v); [apply IH|left; reflexivity].
        + destruct l as [|v l]; [left; reflexivity|]. destruct (set_flag T parse_tolerance st n v); [apply IH|left; reflexivity].
      - destruct (String.eqb n "help" || String.eqb n "h"); [right|left]; reflexivity. }
    specialize (F args (defaults T default_tolerance)).
    destruct (flag_parse T parse_tolerance help_status (defaults T default_tolerance) args) as [s|[st rest]]; [left; exists s; split; [reflexivity|tauto]|].
    destruct rest as [|a [|b [|c rest]]]; try (left; exists 2%Z; split; [reflexivity|tauto]).
    destruct (String.eqb (validator T st) ""); [left; exists 2%Z; split; [reflexivity|tauto]|].
    destruct (open a) as [e|]; [|left; exists 1%Z; split; [reflexivity|tauto]].
    destruct (open b) as [c|]; [|left; exists 1%Z; split; [reflexivity|tauto]]. cbv zeta.
    destruct (verr _); [left; exists 1%Z; split; [reflexivity|tauto]|]. right.
    destruct (score_unit fold_eq (num_eq (tolerance T st)) parse maxTok (validator T st) e c) as (U1 & U2). eexists. split; [exact U1|]. split; [exact U2|reflexivity]. }
  destruct X as [(status & -> & C)|(v & V1 & V2 & ->)].
  - split; [|split; [congruence|auto]]. split; [congruence|]. intros (h & (a & b & c & _ & _ & S) & _). discriminate S.
  - assert (N : printed (Float64 v) <> "") by discriminate. split; [|split; [reflexivity|congruence]].
    split; [|intros _; exact N]. intros _. destruct (shown v V1 V2) as (h & S & R & _ & _ & _). eauto.
Qed.

(* The number is the floating-point number rounded to hundredths (halves to even), so
   the score to within half a hundredth and 2^-53; full and no marks exactly. *)
Theorem C87_rounded : forall v, (0 <= v)%Q -> (v <= 1)%Q -> exists h, shows (printed (Float64 v)) h /\
  (Qabs (inject_Z h / 100 - Float64 v) <= 1 # 200)%Q /\ ((Qabs (inject_Z h - Float64 v * 100) == 1 # 2)%Q -> Z.even h = true) /\
  (Qabs (inject_Z h / 100 - v) <= (1 # 200) + (1 # 2 ^ 53))%Q /\ ((v == 1)%Q -> h = 100%Z) /\ ((v == 0)%Q -> h = 0%Z).
Proof.
  intros v A B. destruct (shown v A B) as (h & S & R & D & D1 & D2). exists h. split; [exact S|]. split; [exact D1|]. split; [exact D2|]. split; [exact D|].
  apply Qabs_Qle_condition in D. unfold Qdiv in D. change (/ 100)%Q with (1 # 100)%Q in D.
  assert (K : (1 # 2 ^ 53 <= 1 # 1000)%Q) by (unfold Qle; cbn; lia). set (k := (1 # 2 ^ 53)%Q) in *. split; intros E; rewrite E in D.
  - destruct D as (D & _). assert (X : (inject_Z 99 < inject_Z h)%Q) by (change (inject_Z 99) with 99%Q; lra). rewrite <- Zlt_Qlt in X. lia.
  - destruct D as (_ & D). assert (X : (inject_Z h < inject_Z 1)%Q) by (change (inject_Z 1) with 1%Q; lra). rewrite <- Zlt_Qlt in X. lia.
Qed.

(* The floating-point number is the nearest: a multiple of a power of two with 53
   bits (or the least power), off by no more than half of it, and even if by half. *)
Theorem C87_float : forall q, (0 < q)%Q -> exists m e, (Float64 q == inject_Z m * (2 ^ e))%Q /\ (0 <= m <= 2 ^ 53)%Z /\
  (e = -1074 \/ (-1074 < e /\ 2 ^ 52 <= m))%Z /\ (Qabs (Float64 q - q) <= 2 ^ e * (1 # 2))%Q /\
  ((Qabs (Float64 q - q) == 2 ^ e * (1 # 2))%Q -> Z.even m = true).
Proof. intros q P. destruct (Float64_spec q P) as (m & e & H1 & H2 & H3 & H4 & _ & H5). exists m, e. auto. Qed.

(* With -validator token: 1.00 if the files have the same tokens, else 0.00; the
   status is 0 in both cases. *)
Theorem C87_tokens : forall opts sep expected contestant ex co te tc,
  (4 <= maxTok)%N -> all_spelled [Validator "token"] opts -> (sep = ["--"] \/ sep = [] /\ plain expected) ->
  open expected = Some ex -> open contestant = Some co ->
  readable IsNonWhitespace maxTok ex -> readable IsNonWhitespace maxTok co ->
  tokenized IsNonWhitespace (chars (contents ex)) te -> tokenized IsNonWhitespace (chars (contents co)) tc ->
  (map text te = map text tc -> main (opts ++ sep ++ [expected; contestant]) = (0%Z, "1.00" ++ LF)) /\
  (map text te <> map text tc -> main (opts ++ sep ++ [expected; contestant]) = (0%Z, "0.00" ++ LF)).
Proof.
  intros opts sep e c ex co te tc HM A S Oe Oc Re Rc Te Tc.
  destruct (C87_run [Validator "token"] opts sep e c A) as (t & _ & E).
  - intros t [X|[]]. discriminate X.
  - exact S.
  - discriminate.
  - rewrite E, Oe, Oc. cbn [last_validator]. cbv zeta.
    destruct (C15_token_score fold_eq (num_eq t) parse maxTok ex co te tc HM Re Rc Te Tc) as (H1 & H2 & H3). rewrite H1.
    split; intros H.
    + rewrite (proj1 (H2 H)). vm_compute. reflexivity.
    + rewrite (proj1 (H3 H)). vm_compute. reflexivity.
Qed.
End Props.
Print Assumptions C87_run.
Print Assumptions C87_usage.
Print Assumptions C87_output.
Print Assumptions C87_rounded.
Print Assumptions C87_float.
Print Assumptions C87_tokens.

(* ---- cases that meet the hypotheses ---- *)
Definition as_bytes (s : string) : bytes := map N_of_ascii (list_ascii_of_string s).
Definition file (s : string) : reader := mkRd [as_bytes s] EEOF false.
(* The decimals 0.abc *)
Definition decimals (t : bytes) : option Q :=
  match t with [48%N; 46%N; a; b; c] => Some (Z.of_N (100 * (a - 48) + 10 * (b - 48) + (c - 48)) # 1000)%Q | _ => None end.
Definition command (open : string -> option reader) (args : list string) : Z * string :=
  main Z 6%Z (fun s => if String.eqb s "1e-3" then Some 3%Z else None) (fun _ _ _ => true) (fun _ _ => true) decimals MaxTokenLength 0%Z open args.
Definition disk (p : string) : option reader :=
  if String.eqb p "a" then Some (file "1 2") else if String.eqb p "b" then Some (file " 1  2 ") else if String.eqb p "c" then Some (file "1")
  else if String.eqb p "n" then Some (file "0.996") else if String.eqb p "h" then Some (file "0.995") else if String.eqb p "e" then Some (file "") else None.
Example command_equal : command disk ["-validator"; "token"; "--tolerance=1e-3"; "a"; "b"] = (0%Z, "1.00" ++ LF) /\
  all_spelled [Validator "token"; Tolerance "1e-3"] ["-validator"; "token"; "--tolerance=1e-3"] /\ plain "a".
Proof.
  split; [vm_compute; reflexivity|]. split.
  - apply (AnOption (Validator "token") _ ["-validator"; "token"]); [exact (OneDash (Validator "token"))|].
    apply (AnOption (Tolerance "1e-3") [] ["--tolerance=1e-3"] []); [exact (TwoDashesEq (Tolerance "1e-3"))|constructor].
  - right. intros t. discriminate.
Qed.
Example command_tokens : (4 <= MaxTokenLength)%N /\ readable IsNonWhitespace MaxTokenLength (file "1 2") /\ readable IsNonWhitespace MaxTokenLength (file "1").
Proof. split; [vm_compute; discriminate|]. split; apply readable_small; try reflexivity; vm_compute; discriminate. Qed.
Example command_other : command disk ["--validator=token"; "--"; "a"; "c"] = (0%Z, "0.00" ++ LF) /\ command disk ["-validator"; "token"; "a"] = (2%Z, "") /\
  command disk ["-validator"; "token"; "a"; "-"] = (1%Z, "") /\ command disk ["-tolerance"; "x"; "-validator"; "token"; "a"; "b"] = (2%Z, "").
Proof. repeat match goal with |- _ /\ _ => split end; vm_compute; reflexivity. Qed.
Example half_down : (Float64 (995 # 1000) < 995 # 1000)%Q.
Proof. vm_compute. reflexivity. Qed.

(* False of the code: 1.00 is printed for full marks only. *)
Theorem C87_full_refuted : exists open args e c, open "e" = Some e /\ open "n" = Some c /\ args = ["-validator"; "custom"; "e"; "n"] /\
  command open args = (0%Z, "1.00" ++ LF) /\
  (score (CalculateScore (fun _ _ => true) (fun _ _ => true) decimals MaxTokenLength "custom" e c) == 996 # 1000)%Q.
Proof.
  exists disk, ["-validator"; "custom"; "e"; "n"], (file ""), (file "0.996").
  repeat match goal with |- _ /\ _ => split end; vm_compute; reflexivity.
Qed.
Print Assumptions C87_full_refuted.
(* False of the code: halves are rounded up. *)
Theorem C87_half_refuted : exists open args, command open args = (0%Z, "0.99" ++ LF) /\ open "h" = Some (file "0.995") /\ args = ["-validator"; "custom"; "e"; "h"].
Proof. exists disk, ["-validator"; "custom"; "e"; "h"]. repeat match goal with |- _ /\ _ => split end; vm_compute; reflexivity. Qed.
Print Assumptions C87_half_refuted.
(* False of the code: a validator that does not look at the expected output works
   without it; an unknown validator is an error. *)
Theorem C87_needed_refuted : exists open, open "x" = None /\ command open ["-validator"; "custom"; "x"; "n"] = (1%Z, "") /\
  command open ["-validator"; "custom"; "e"; "n"] = (0%Z, "1.00" ++ LF).
Proof. exists disk. repeat match goal with |- _ /\ _ => split end; vm_compute; reflexivity. Qed.
Print Assumptions C87_needed_refuted.
Theorem C87_unknown_refuted : exists open, command open ["-validator"; "tokens"; "e"; "e"] = (0%Z, "1.00" ++ LF).
Proof. exists disk. vm_compute. reflexivity. Qed.
Print Assumptions C87_unknown_refuted.

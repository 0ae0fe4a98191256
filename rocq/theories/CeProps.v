(* C86: what is said about a failed compilation. *)
From Coq Require Import String Ascii List Bool Arith ZArith.
From Verif Require Import GoStr NumModel GradeModel MetaModel CeModel CeSpec CeProofs.
Import ListNotations.
Local Open Scope string_scope.

Section Props.
Variable pf : string -> float64.
Variable root : string.
Implicit Types (f : files) (l : list (binary * sandbox_call)).
Notation compile f l := (compile_binaries pf root f l).
Notation names l := (map (fun x : binary * sandbox_call => b_name (fst x)) l).

(* When nothing is wrong with the machine: there is a text exactly if a program is
   not accepted; it is about the first one, and it is all that was said about it,
   under its name.  The runner notes the programs up to that one. *)
Theorem C86_text : forall f l, NoDup (names l) -> (forall b c, In (b, c) l -> smooth b c) ->
  snd (compile f l) = match find (fun x => negb (accepted pf f (fst x) (snd x))) l with
                      | None => None
                      | Some (b, c) => Some (b_name b ++ ":" ++ NL ++ said pf f b c, malformed pf b c)
                      end /\
  snd (fst (compile f l)) = map (fun x => (b_name (fst x), noted pf f (fst x) (snd x))) (upto (fun x => accepted pf f (fst x) (snd x)) l).
Proof.
  intros f l N S. destruct (run_smooth pf root l N f (fun x => match x with (b, c) => S b c end)) as (H1 & H2).
  split; [|exact H1]. rewrite H2. unfold good. destruct (find _ l) as [[b c]|]; reflexivity.
Qed.

(* Whatever goes wrong: without a text all programs were compiled and are OK; with
   one, it names the last program the runner notes, the only one that is not, and
   gives a file of that program as it was left, or says that there is none. *)
Theorem C86_names : forall f l, NoDup (names l) ->
  let '(f', ms, r) := compile f l in
  match r with
  | None => map fst ms = names l /\ (forall n m, In (n, m) ms -> d_verdict m = OK)
  | Some (t, e) => exists l1 b c l2 ms1 m, l = (l1 ++ (b, c) :: l2)%list /\ ms = (ms1 ++ [(b_name b, m)])%list /\
      map fst ms1 = names l1 /\ (forall n m, In (n, m) ms1 -> d_verdict m = OK) /\ (e = true \/ d_verdict m <> OK) /\
      t = b_name b ++ ":" ++ NL ++
          (let p := if String.eqb (b_language b) "pas" || String.eqb (b_language b) "cs" then OutFile else ErrFile in
           match f' (b_name b, p) with
           | Some s => s
           | None => "open " ++ root ++ "/" ++ b_name b ++ "/" ++ match p with OutFile => "compile.out" | _ => "compile.err" end ++ ": no such file or directory"
           end)
  end.
Proof.
  intros f l N. assert (H := run_names pf root l N f). destruct (compile f l) as [[f' ms] r]. destruct r as [[t e]|].
  - destruct H as (l1 & b & c & l2 & ms1 & m & H1 & H2 & H3 & H4 & H5 & H6). exists l1, b, c, l2, ms1, m.
    repeat match goal with |- _ /\ _ => split end; try assumption.
    + intros n m' I. rewrite Forall_forall in H4. exact (H4 (n, m') I).
    + rewrite H6. unfold getCompileError, compileErrorFile, path_of. cbn [fst snd].
      destruct (String.eqb (b_language b) "pas" || String.eqb (b_language b) "cs"); destruct (f' _); try reflexivity;
        rewrite !append_assoc; reflexivity.
  - destruct H as (H1 & H2). split; [exact H1|]. intros n m I. rewrite Forall_forall in H2. exact (H2 (n, m) I).
Qed.

(* If the sandbox cannot be started and nothing was compiled there before, the run
   ends with an error, and the text says only that a file of the runner's is
   missing. *)
Theorem C86_no_sandbox : forall f b c l, starts c = false -> (forall p, f (b_name b, p) = None) ->
  snd (compile f ((b, c) :: l)) = Some (b_name b ++ ":" ++ NL ++ "open " ++ root ++ "/" ++ b_name b ++ "/" ++
    (if String.eqb (b_language b) "pas" || String.eqb (b_language b) "cs" then "compile.out" else "compile.err") ++ ": no such file or directory", true) /\
  exists m, snd (fst (compile f ((b, c) :: l))) = [(b_name b, m)] /\ d_verdict m = JE.
Proof. intros f b c l S H. apply run_no_sandbox; auto. Qed.

(* Whatever goes wrong, what a compiler wrote is kept: its standard output as it is,
   its standard error followed by what the runner adds. *)
Theorem C86_kept : forall f l, NoDup (names l) ->
  let '(f', ms, r) := compile f l in
  forall b c, In (b, c) (firstn (length ms) l) -> sources_ok b = true -> starts c = true ->
  (forall s, j_out c = Some s -> f' (b_name b, OutFile) = Some s) /\
  (forall s, j_err c = Some s -> exists z, f' (b_name b, ErrFile) = Some (s ++ z)).
Proof.
  intros f l N.
  assert (H := run_file pf root (fun b c f' => sources_ok b = true -> starts c = true ->
    (forall s, j_out c = Some s -> f' (b_name b, OutFile) = Some s) /\
    (forall s, j_err c = Some s -> exists z, f' (b_name b, ErrFile) = Some (s ++ z))) l).
  cbv beta in H. specialize (fun A B => H A B N f). destruct (compile f l) as [[f' ms] r]. cbn [fst snd] in H. apply H.
  - intros f1 b c So S. split; intros s E; [apply (compile_out_kept pf); auto|apply (compile_kept pf); auto].
  - intros b c f1 f2 E P So S. rewrite !E. exact (P So S).
Qed.

(* Nothing is written elsewhere, and nothing is left of the sandbox's own log. *)
Theorem C86_only : forall f l, NoDup (names l) ->
  let '(f', ms, r) := compile f l in
  (forall n p, ~ In n (names l) -> f' (n, p) = f (n, p)) /\
  (forall b c, In (b, c) (skipn (length ms) l) -> forall p, f' (b_name b, p) = f (b_name b, p)) /\
  (forall b c, In (b, c) (firstn (length ms) l) -> sources_ok b = true -> log_ok c = true -> f' (b_name b, LogFile) = None).
Proof.
  intros f l N.
  assert (H := run_file pf root (fun b c f' => sources_ok b = true -> log_ok c = true -> f' (b_name b, LogFile) = None) l).
  cbv beta in H. specialize (fun A B => H A B N f).
  assert (O := run_other pf root l f). assert (K := run_rest pf root l N f).
  destruct (compile f l) as [[f' ms] r]. cbn [fst snd] in *. split; [|split].
  - intros n p I. apply O. exact I.
  - exact K.
  - apply H.
    + intros f1 b c So Lo. rewrite compile_log, So, Lo. reflexivity.
    + intros b c f1 f2 E P So Lo. rewrite E. exact (P So Lo).
Qed.

(* A Java program that is OK has its class. *)
Theorem C86_class : forall f l, NoDup (names l) ->
  let '(f', ms, r) := compile f l in
  forall b c m, In (b, c) l -> b_language b = "java" -> In (b_name b, m) ms -> d_verdict m = OK ->
  exists s, f' (b_name b, InBin (b_target b ++ ".class")) = Some s.
Proof.
  intros f l N. assert (H := run_java pf root l N f). destruct (compile f l) as [[f' ms] r]. intros b c m I J M V. exact (H b c m I M J V).
Qed.
End Props.
Print Assumptions C86_text.
Print Assumptions C86_names.
Print Assumptions C86_no_sandbox.
Print Assumptions C86_kept.
Print Assumptions C86_only.
Print Assumptions C86_class.

(* ---- cases that meet the hypotheses ---- *)
Definition no_time (s : string) : float64 := fzero.
Definition prog n l := {| b_name := n; b_language := l; b_validator := false; b_target := n; sources_ok := true |}.
Definition call o e m bin says := {| starts := true; j_out := Some o; j_err := Some e; j_meta := Some m; j_bin := bin; j_says := says;
  log_ok := true; err_ok := true; room := 1000; class_ok := true; class_room := 1000 |}.
Definition no_files : files := fun _ => None.
Definition ok_meta : string := "status:0" ++ NL.
Definition bad_meta : string := "status:1" ++ NL.
(* Three programs, the second a Java program whose class has another name. *)
Definition three := [(prog "Main" "cpp", call "" "warning" ok_meta [("Main", "x")] "");
                     (prog "lib" "java", call "" "note" ok_meta [("Lib.class", "x")] "jail: ok");
                     (prog "validator" "py", call "" "" bad_meta [] "")].
Lemma three_smooth : NoDup (map (fun x : binary * sandbox_call => b_name (fst x)) three) /\ forall b c, In (b, c) three -> smooth b c.
Proof.
  split.
  - repeat (constructor; [cbn; intuition discriminate|]). constructor.
  - intros b c [E|[E|[E|[]]]]; injection E as <- <-; repeat split; try (eexists; reflexivity); apply Nat.leb_le; vm_compute; reflexivity.
Qed.
Example three_text : snd (compile_binaries no_time "/r" no_files three) =
  Some ("lib:" ++ NL ++ "note" ++ NL ++ "jail: ok" ++ NL ++ "Class `lib` not found. Make sure your class is named `lib` and outside all packages", false) /\
  map (fun x => (fst x, d_verdict (snd x))) (snd (fst (compile_binaries no_time "/r" no_files three))) = [("Main", OK); ("lib", CE)].
Proof. split; vm_compute; reflexivity. Qed.
Example three_spec : said no_time no_files (prog "lib" "java") (call "" "note" ok_meta [("Lib.class", "x")] "jail: ok") =
  "note" ++ NL ++ "jail: ok" ++ NL ++ "Class `lib` not found. Make sure your class is named `lib` and outside all packages".
Proof. vm_compute. reflexivity. Qed.
Example two_fine : snd (compile_binaries no_time "/r" no_files [(prog "Main" "cpp", call "" "warning" ok_meta [("Main", "x")] "");
    (prog "lib" "java", call "" "note" ok_meta [("lib.class", "x")] "")]) = None.
Proof. vm_compute. reflexivity. Qed.

(* False of the code: that the text has what the sandbox said.  For Pascal and C# it
   goes to the file that is not shown. *)
Theorem C86_told_refuted : exists b c, smooth b c /\ accepted no_time no_files b c = false /\ j_says c <> "" /\
  exists t e, snd (compile_binaries no_time "/r" no_files [(b, c)]) = Some (t, e) /\ ~ occurs (j_says c) t.
Proof.
  exists (prog "Main" "pas"), (call "o" "" bad_meta [] "cannot run"). split; [|split; [|split]].
  - repeat split; try (eexists; reflexivity); apply Nat.leb_le; vm_compute; reflexivity.
  - vm_compute. reflexivity.
  - discriminate.
  - eexists _, _. split; [vm_compute; reflexivity|]. intros (a & z & E).
    destruct a as [|a1 [|a2 [|a3 [|a4 [|a5 [|a6 [|a7 [|a8 a]]]]]]]]; cbn in E; discriminate E.
Qed.
Print Assumptions C86_told_refuted.

(* False of the code: that the text has only what was said about the program: it can
   be a path of the runner. *)
Theorem C86_host_refuted : exists root b c t e, snd (compile_binaries no_time root no_files [(b, c)]) = Some (t, e) /\ occurs root t /\
  root = "/var/lib/omegaup/runner/grade/1".
Proof.
  exists "/var/lib/omegaup/runner/grade/1", (prog "Main" "cpp"),
    {| starts := false; j_out := None; j_err := None; j_meta := None; j_bin := []; j_says := ""; log_ok := true; err_ok := true; room := 0; class_ok := true; class_room := 0 |}.
  eexists _, _. split; [vm_compute; reflexivity|]. split; [|reflexivity].
  exists ("Main:" ++ NL ++ "open "), "/Main/compile.err: no such file or directory". reflexivity.
Qed.
Print Assumptions C86_host_refuted.

(* False of the code: that a program is accepted only if the sandbox was started: what
   is left of an earlier compilation of the attempt is read. *)
Theorem C86_stale_refuted : exists f b c, starts c = false /\ snd (compile_binaries no_time "/r" f [(b, c)]) = None.
Proof.
  exists (put no_files ("Main", MetaFile_) ok_meta), (prog "Main" "cpp"),
    {| starts := false; j_out := None; j_err := None; j_meta := None; j_bin := []; j_says := ""; log_ok := true; err_ok := true; room := 0; class_ok := true; class_room := 0 |}.
  split; [reflexivity|]. vm_compute. reflexivity.
Qed.
Print Assumptions C86_stale_refuted.

(* False of the code: that the text is complete or the run ends with an error: when the
   disk is full it is cut in silence. *)
Theorem C86_whole_refuted : exists b c, starts c = true /\ sources_ok b = true /\ 
  snd (compile_binaries no_time "/r" no_files [(b, c)]) = Some ("Main:" ++ NL ++ "e" ++ NL ++ "oo", false) /\ j_says c = "oom".
Proof.
  exists (prog "Main" "cpp"), {| starts := true; j_out := Some ""; j_err := Some "e"; j_meta := Some bad_meta; j_bin := []; j_says := "oom";
    log_ok := true; err_ok := true; room := 3; class_ok := true; class_room := 0 |}.
  split; [reflexivity|]. split; [reflexivity|]. split; [vm_compute; reflexivity|reflexivity].
Qed.
Print Assumptions C86_whole_refuted.

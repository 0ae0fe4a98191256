(* C84. *)
From Coq Require Import String Ascii List Sorted Bool Arith NArith QArith.
From Verif Require Import OsModel OsSpec OsProofs.
Import ListNotations.
Local Open Scope string_scope.

(* ---- path.Ext ---- *)
Lemma las_app a b : list_ascii_of_string (a ++ b) = (list_ascii_of_string a ++ list_ascii_of_string b)%list.
Proof. induction a; cbn; congruence. Qed.
Lemma ext_from_spec l : forall acc,
  (exists b, l = (rev (list_ascii_of_string b)) /\ ~ In "."%char l /\ ext_from l acc = "") \/
  (exists x y, l = (x ++ "/"%char :: y)%list /\ ~ In "."%char x /\ ~ In "/"%char x /\ ext_from l acc = "") \/
  (exists x y, l = (x ++ "."%char :: y)%list /\ ~ In "."%char x /\ ~ In "/"%char x /\ ext_from l acc = String "." (string_of_list_ascii (rev x ++ acc))).
Proof.
  induction l as [|c l IH]; intro acc; cbn [ext_from].
  - left. exists "". split; [reflexivity|]. split; [intros []|reflexivity].
  - destruct (Ascii.eqb_spec c "/") as [->|N1]; [right; left; exists [], l; split; [reflexivity|]; split; [intros []|]; split; [intros []|reflexivity]|].
    destruct (Ascii.eqb_spec c ".") as [->|N2]; [right; right; exists [], l; split; [reflexivity|]; split; [intros []|]; split; [intros []|reflexivity]|].
    destruct (IH (c :: acc)) as [(b & E & A & B)|[(x & y & E & A & B & C)|(x & y & E & A & B & C)]].
    + left. exists (b ++ String c ""). rewrite las_app, rev_app_distr, E. split; [reflexivity|]. split; [intros [X|X]; [congruence|apply A; rewrite E; exact X]|rewrite <- E; exact B].
    + right. left. exists (c :: x), y. rewrite E. split; [reflexivity|]. rewrite <- E. split; [intros [X|X]; [congruence|contradiction]|]. split; [intros [X|X]; [congruence|contradiction]|exact C].
    + right. right. exists (c :: x), y. split; [rewrite E; reflexivity|]. split; [intros [X|X]; [congruence|contradiction]|]. split; [intros [X|X]; [congruence|contradiction]|].
      rewrite C. cbn [rev]. rewrite <- app_assoc. reflexivity.
Qed.
Lemma split_unique {A} (c : A) a b x y : ~ In c b -> ~ In c y -> (a ++ c :: b = x ++ c :: y)%list -> b = y.
Proof.
  revert x. induction a as [|h a IH]; intros [|g x] N1 N2 E; cbn in E.
  - congruence.
  - injection E as <- ->. exfalso. apply N1, in_or_app. right. left. reflexivity.
  - injection E as -> E. exfalso. apply N2. rewrite <- E. apply in_or_app. right. left. reflexivity.
  - injection E as -> E. eapply IH; eassumption.
Qed.
Lemma extension_unique p l m : extension p l -> extension p m -> l = m.
Proof.
  intros (a & -> & A & _) (b & E & B & _). apply (f_equal list_ascii_of_string) in E. rewrite !las_app in E. cbn in E.
  apply split_unique in E; [|assumption|assumption]. rewrite <- (string_of_list_ascii_of_string l), <- (string_of_list_ascii_of_string m). congruence.
Qed.
Lemma Ext_spec p : (Ext p = "" /\ forall l, ~ extension p l) \/ exists l, Ext p = String "." l /\ extension p l.
Proof.
  unfold Ext. set (r := rev (list_ascii_of_string p)). assert (P : list_ascii_of_string p = rev r) by (unfold r; rewrite rev_involutive; reflexivity).
  destruct (ext_from_spec r []) as [(b & E & A & B)|[(x & y & E & A & B & C)|(x & y & E & A & B & C)]].
  - left. split; [exact B|]. intros l (a & -> & _). apply A. apply in_rev. rewrite <- P, las_app. apply in_or_app. right. left. reflexivity.
  - left. split; [exact C|]. intros l (a & -> & N1 & N2). rewrite E, rev_app_distr, las_app in P. cbn in P. rewrite <- app_assoc in P. cbn in P.
    assert (X : forall (u v : list ascii) w z, ~ In "."%char z -> ~ In "/"%char v -> (u ++ "."%char :: v = w ++ "/"%char :: z)%list -> False).
    { clear. induction u as [|h u IH]; intros v [|g w] z N1 N2 E; cbn in E; [discriminate| | |].
      - injection E as _ ->. apply N2, in_or_app. right. left. reflexivity.
      - injection E as -> <-. apply N1, in_or_app. right. left. reflexivity.
      - injection E as -> E. eapply IH; eassumption. }
    eapply X; [| |exact P]; [intro I1; apply A, in_rev, I1|exact N2].
  - right. rewrite app_nil_r in C. exists (string_of_list_ascii (rev x)). split; [exact C|]. exists (string_of_list_ascii (rev y)). split; [|split].
    + rewrite <- (string_of_list_ascii_of_string p), P, E, rev_app_distr. cbn. rewrite <- app_assoc. cbn.
      clear. induction (rev y) as [|c l IH]; cbn; [reflexivity|]. rewrite IH. reflexivity.
    + unfold without. rewrite list_ascii_of_string_of_list_ascii. intro I1. apply A, in_rev, I1.
    + unfold without. rewrite list_ascii_of_string_of_list_ascii. intro I1. apply B, in_rev, I1.
Qed.

Section Oneshot.
Variable troubles : path -> trouble.
Variables Settings Result Bench : Type.
Variables version debug : bool.
Variables oneshot request source input results : string.
Variable read_file : string -> option string.
Variable read_run : string -> option Run.
Variable settings_json : option string.
Variable read_settings : string -> option Settings.
Variable config : option (option bool).
Variable PRESERVE : string.
Variable temp_ok : bool.
Variable Grade : Run -> Settings -> graded Result * option node.
Variable RunHostBenchmark : option Bench.
Variable encodes : Result -> bool.
Variable before : dir.
Notation main := (main troubles Settings Result Bench version debug oneshot request source input results read_file read_run settings_json read_settings config PRESERVE temp_ok Grade RunHostBenchmark encodes before).
Notation runOneshotRun := (runOneshotRun troubles Settings Result Bench debug request source input results read_file read_run settings_json read_settings Grade encodes before).
Notation the_run := (the_run debug request source read_file read_run).
Notation calls := (calls Settings Result Bench). Notation stdout := (stdout Settings Result Bench). Notation ends := (ends Settings Result Bench).
Notation copied := (copied Settings Result Bench). Notation tmp := (tmp Settings Result Bench). Notation run_dir := (run_dir Settings Result Bench).

(* The program gets as far as the one-shot mode. *)
Definition started (preserve : bool) : Prop := version = false /\ config = Some (Some preserve) /\ temp_ok = true.

Lemma the_run_asked r : the_run = Some r <-> asked read_file read_run request source debug r.
Proof.
  unfold OsModel.the_run, asked, hash. destruct (String.eqb_spec request "") as [R|R]; cbn [negb].
  - destruct (String.eqb_spec source "") as [S|S]; cbn [negb].
    + split; [discriminate|]. intros [(t & r0 & X & _)|(t & _ & X & _)]; contradiction.
    + destruct (read_file source) as [b|] eqn:F.
      2:{ split; [discriminate|]. intros [(t & r0 & X & _)|(t & _ & _ & X & _)]; [contradiction|discriminate]. }
      destruct (Ext_spec source) as [(E & N)|(l & E & X)]; rewrite E; cbn [String.eqb].
      * split; [discriminate|]. intros [(t & r0 & Y & _)|(t & _ & _ & _ & _ & Y & _)]; [contradiction|]. exfalso. eapply N. exact Y.
      * split.
        -- intro H. injection H as <-. right. exists b. cbn. repeat (split; [assumption || reflexivity|]). split; [destruct debug; reflexivity|reflexivity].
        -- intros [(t & r0 & Y & _)|(t & _ & _ & T & Y1 & Y2 & Y3 & Y4 & Y5 & Y6 & Y7)]; [contradiction|]. injection T as <-. f_equal.
           destruct r as [a s lg pn ih ms db]. cbn in *. rewrite (extension_unique source lg l Y2 X). subst. destruct debug; reflexivity.
  - destruct (read_file request) as [b|] eqn:F.
    2:{ split; [discriminate|]. intros [(t & r0 & _ & X & _)|(t & X & _)]; [discriminate|contradiction]. }
    destruct (read_run b) as [r0|] eqn:D.
    2:{ split; [discriminate|]. intros [(t & r0 & _ & X & Y & _)|(t & X & _)]; [congruence|contradiction]. }
    split.
    + intro H. injection H as <-. left. exists b, r0. cbn. repeat (split; [assumption || reflexivity|]). reflexivity.
    + intros [(t & r1 & _ & T & Y0 & Y1 & Y2 & Y3 & Y4 & Y5 & Y6 & Y7)|(t & X & _)]; [|contradiction]. injection T as <-. rewrite D in Y0. injection Y0 as <-. f_equal.
      destruct r as [a s lg pn ih ms db]. cbn in *. subst. destruct debug; reflexivity.
Qed.

(* The run graded is the one asked for, with the settings of the directory. *)
Theorem C84_graded : forall run st,
  calls main = Some (run, st) <->
  (exists preserve, started preserve) /\ oneshot = "run" /\ input <> "" /\ asked read_file read_run request source debug run /\
  exists j, settings_json = Some j /\ read_settings j = Some st.
Proof.
  intros run st. unfold OsModel.main, started. destruct version; [split; [discriminate|intros ((p & X & _) & _); discriminate]|].
  destruct config as [[preserve|]|]; [|split; [discriminate|intros ((p & _ & X & _) & _); discriminate] ..].
  unfold isOneShotMode. destruct (String.eqb_spec oneshot "benchmark") as [->|NB]; cbn [orb].
  { destruct temp_ok; cbn [negb]; [|split; [discriminate|intros ((p & _ & _ & X) & _); discriminate]]. cbn [OsModel.runOneshotBenchmark OsModel.ends].
    split; [destruct (negb (if negb (PRESERVE =? "") then true else preserve)); discriminate|]. intros (_ & X & _). discriminate. }
  destruct (String.eqb_spec oneshot "run") as [->|NR]; [|split; [discriminate|intros (_ & X & _); contradiction]].
  destruct temp_ok; cbn [negb]; [|split; [discriminate|intros ((p & _ & _ & X) & _); discriminate]].
  set (keep := if negb (PRESERVE =? "") then true else preserve).
  assert (C : calls (match ends (runOneshotRun keep) with Never => runOneshotRun keep | _ => if negb keep then
       {| OsModel.calls := calls (runOneshotRun keep); OsModel.stdout := stdout (runOneshotRun keep); OsModel.copied := copied (runOneshotRun keep); OsModel.tmp := false; OsModel.run_dir := None; OsModel.ends := ends (runOneshotRun keep) |}
       else runOneshotRun keep end) = calls (runOneshotRun keep)).
  { destruct (ends (runOneshotRun keep)), keep; reflexivity. }
  rewrite C. clear C. rewrite <- the_run_asked. unfold OsModel.runOneshotRun.
  destruct (String.eqb_spec input "") as [->|NI]; [split; [discriminate|intros (_ & _ & X & _); contradiction]|].
  destruct the_run as [r|]; [|split; [discriminate|intros (_ & _ & _ & X & _); discriminate]].
  unfold Persist. destruct settings_json as [j|]; [|split; [discriminate|intros (_ & _ & _ & _ & j & X & _); discriminate]].
  destruct (read_settings j) as [s|] eqn:RS; [|split; [discriminate|intros (_ & _ & _ & _ & j' & X & Y); congruence]].
  assert (C : calls (let remove_root := (negb (results =? "") && negb keep)%bool in
     let keep0 := if remove_root then true else keep in
     let (r0, tree) := Grade r s in
     let left := if keep0 then tree else None in
     let after (ends : exit) := match ends with Never => left | _ => if remove_root then None else left end in
     let o out d e := {| OsModel.calls := Some (r, s); OsModel.stdout := out; OsModel.copied := d; OsModel.tmp := true; OsModel.run_dir := after e; OsModel.ends := e |} in
     match r0 with
     | Panicked _ => o None before (Exits 2) | Failure _ => o None before (Exits 0)
     | Success _ r => let out := if encodes r then Some (inl (inl r)) else None in
         if (results =? "")%string then o out before (Exits 0)
         else match left with None => o out before (Exits 0) | Some t => match walk troubles before [] t with (d, Hangs) => o out d Never | (d, _) => o out d (Exits 0) end end
     end) = Some (r, s)).
  { destruct (Grade r s) as [[x| |] tree]; cbn zeta iota; try reflexivity. destruct (results =? ""); [reflexivity|].
    destruct (if (if (negb false && negb keep)%bool then true else keep) then tree else None) as [t|]; [|reflexivity]. destruct (walk troubles before [] t) as [d []]; reflexivity. }
  etransitivity; [|apply iff_refl]. cbn zeta in C |- *. rewrite C. split.
  - intro H. injection H as <- <-. split; [exists preserve; auto|]. split; [reflexivity|]. split; [exact NI|]. split; [reflexivity|]. exists j. auto.
  - intros (_ & _ & _ & X & j' & Y & Z). congruence.
Qed.

(* PreserveFiles of the configuration, or the environment. *)
Definition keeps (preserve : bool) : bool := if String.eqb PRESERVE "" then preserve else true.
Definition finish (g : graded Result * option node) : dir * exit :=
  match g with
  | (Panicked _, _) => (before, Exits 2)
  | (Failure _, _) => (before, Exits 0)
  | (Success _ _, None) => (before, Exits 0)
  | (Success _ _, Some t) => if results =? "" then (before, Exits 0) else match walk troubles before [] t with (d, Hangs) => (d, Never) | (d, _) => (d, Exits 0) end
  end.
Lemma main_called run st : calls main = Some (run, st) -> exists preserve, started preserve /\
  main = {| OsModel.calls := Some (run, st);
            OsModel.stdout := match fst (Grade run st) with Success _ r => if encodes r then Some (inl (inl r)) else None | _ => None end;
            OsModel.copied := fst (finish (Grade run st));
            OsModel.tmp := match snd (finish (Grade run st)) with Never => true | _ => keeps preserve end;
            OsModel.run_dir := match snd (finish (Grade run st)) with Never => snd (Grade run st) | _ => if keeps preserve then snd (Grade run st) else None end;
            OsModel.ends := snd (finish (Grade run st)) |}.
Proof.
  intro C. assert (G := proj1 (C84_graded run st) C). clear C. destruct G as ((preserve & V & CF & T) & O & NI & A & j & SJ & RS). exists preserve. split; [split; auto|].
  apply the_run_asked in A. unfold OsModel.main. rewrite V, CF, T, O. cbn [isOneShotMode String.eqb orb negb]. unfold isOneShotMode.
  change ("run" =? "benchmark")%string with false. change ("run" =? "run")%string with true. cbn [orb].
  replace (if negb (PRESERVE =? "") then true else preserve) with (keeps preserve) by (unfold keeps; destruct (PRESERVE =? ""); reflexivity).
  unfold OsModel.runOneshotRun. destruct (String.eqb_spec input "") as [X|_]; [contradiction|]. rewrite A. unfold Persist. rewrite SJ, RS. cbn zeta.
  unfold finish. destruct (Grade run st) as [[x| |] [t|]]; cbn [fst snd]; destruct (keeps preserve); destruct (results =? "")%string; cbn [negb andb]; try reflexivity;
    destruct (walk troubles before [] t) as [d []]; reflexivity.
Qed.

(* What is written to the standard output is the result of grading, if there is one. *)
Theorem C84_printed : forall r,
  stdout main = Some (inl (inl r)) <-> exists run st, calls main = Some (run, st) /\ fst (Grade run st) = Success _ r /\ encodes r = true.
Proof.
  intro r. split.
  - intro H. assert (X : exists run st, calls main = Some (run, st)).
    { revert H. unfold OsModel.main. destruct version; [discriminate|]. destruct config as [[preserve|]|]; try discriminate. destruct isOneShotMode; [|discriminate]. destruct temp_ok; cbn [negb]; [|discriminate].
      destruct (oneshot =? "benchmark")%string.
      - cbn [OsModel.runOneshotBenchmark OsModel.ends]. destruct (negb (if negb (PRESERVE =? "") then true else preserve)); cbn; destruct RunHostBenchmark; discriminate.
      - set (keep := if negb (PRESERVE =? "") then true else preserve). intro H. assert (H1 : stdout (runOneshotRun keep) = Some (inl (inl r))) by (destruct (ends (runOneshotRun keep)), keep; exact H).
        assert (H2 : forall o, calls (match ends (runOneshotRun keep) with Never => runOneshotRun keep | _ => if negb keep then
           {| OsModel.calls := calls (runOneshotRun keep); OsModel.stdout := stdout (runOneshotRun keep); OsModel.copied := copied (runOneshotRun keep); OsModel.tmp := false; OsModel.run_dir := None; OsModel.ends := ends (runOneshotRun keep) |}
           else runOneshotRun keep end) = o <-> calls (runOneshotRun keep) = o) by (intro; destruct (ends (runOneshotRun keep)), keep; reflexivity).
        cut (exists run st, calls (runOneshotRun keep) = Some (run, st)). { intros (run & st & Y). exists run, st. apply H2, Y. }
        clear H H2. revert H1. unfold OsModel.runOneshotRun. destruct (input =? "")%string; [discriminate|]. destruct the_run as [run|]; [|discriminate]. destruct Persist as [st|]; [|discriminate].
        intro H1. exists run, st. clear H1. cbn zeta. destruct (Grade run st) as [[x| |] tree]; cbn; try reflexivity. destruct (results =? "")%string; [reflexivity|]. cbn.
        destruct keep; cbn; (destruct tree as [t|]; [destruct (walk troubles before [] t) as [d []]; reflexivity|reflexivity]). }
    destruct X as (run & st & C). exists run, st. split; [exact C|]. destruct (main_called run st C) as (p & _ & E). rewrite E in H. cbn in H.
    destruct (fst (Grade run st)) as [x| |]; try discriminate. destruct (encodes x) eqn:EN; [|discriminate]. injection H as ->. auto.
  - intros (run & st & C & G & EN). destruct (main_called run st C) as (p & _ & E). rewrite E. cbn. rewrite G, EN. reflexivity.
Qed.
(* What a started one-shot mode ends with. *)
Theorem C84_status : forall preserve, started preserve -> oneshot = "run" \/ oneshot = "benchmark" ->
  ends main = Exits 0 \/
  exists run st, calls main = Some (run, st) /\ (ends main = Exits 2 /\ fst (Grade run st) = Panicked _ \/ ends main = Never /\ results <> "" /\ exists r, fst (Grade run st) = Success _ r).
Proof.
  intros preserve S O. destruct (calls main) as [[run st]|] eqn:C.
  - destruct (main_called run st C) as (p & _ & E). rewrite E. cbn [OsModel.ends]. unfold finish. destruct (Grade run st) as [[x| |] [t|]] eqn:G; cbn [fst snd]; auto.
    + destruct (String.eqb_spec results "") as [R|R]; [auto|]. destruct (walk troubles before [] t) as [d []]; cbn [snd]; auto.
      right. exists run, st. split; [reflexivity|]. right. rewrite G. cbn. split; [reflexivity|]. split; [exact R|eauto].
    + right. exists run, st. split; [reflexivity|]. left. rewrite G. auto.
    + right. exists run, st. split; [reflexivity|]. left. rewrite G. auto.
  - left. revert C. destruct S as (V & CF & T). unfold OsModel.main. rewrite V, CF, T. unfold isOneShotMode. cbn [negb].
    set (keep := if negb (PRESERVE =? "") then true else preserve).
    destruct O as [-> | ->].
    + change ("run" =? "benchmark")%string with false. change ("run" =? "run")%string with true. cbn [orb]. intro C. assert (C' : calls (runOneshotRun keep) = None) by (destruct (ends (runOneshotRun keep)), keep; exact C). clear C.
      assert (X : ends (runOneshotRun keep) = Exits 0).
      { revert C'. unfold OsModel.runOneshotRun. destruct (input =? "")%string; [reflexivity|]. destruct the_run as [run|]; [|reflexivity]. destruct Persist as [st|]; [|reflexivity]. cbn zeta.
        destruct (Grade run st) as [[x| |] tree]; cbn; try discriminate. destruct (results =? "")%string; [discriminate|]. cbn.
        destruct keep; cbn; (destruct tree as [t|]; [destruct (walk troubles before [] t) as [d []]; discriminate|discriminate]). }
      rewrite X. destruct (negb keep); [reflexivity|exact X].
    + change ("benchmark" =? "benchmark")%string with true. cbn. destruct keep; reflexivity.
Qed.
(* Nothing is left of the temporary directory unless the configuration or the
   environment says so: -results does not keep anything. *)
Theorem C84_cleaned : forall run st preserve, calls main = Some (run, st) -> config = Some (Some preserve) -> ends main <> Never ->
  (preserve = false /\ PRESERVE = "" -> tmp main = false /\ run_dir main = None) /\
  (preserve = true \/ PRESERVE <> "" -> tmp main = true /\ run_dir main = snd (Grade run st)).
Proof.
  intros run st preserve C CF. destruct (main_called run st C) as (p & (_ & CF' & _) & E). rewrite CF in CF'. injection CF' as <-. rewrite E. cbn [OsModel.ends OsModel.tmp OsModel.run_dir]. intro N.
  assert (K : forall A (a b : A), match snd (finish (Grade run st)) with Never => a | _ => b end = b) by (intros; destruct (snd (finish (Grade run st))); [reflexivity|contradiction|reflexivity]).
  rewrite !K. unfold keeps. split.
  - intros (-> & ->). split; reflexivity.
  - intros [-> |H]; [destruct (PRESERVE =? "")%string; split; reflexivity|]. destruct (String.eqb_spec PRESERVE "") as [X|_]; [contradiction|]. split; reflexivity.
Qed.
(* The temporary directory of any one-shot execution that ends, whether or not something
   was graded: it is left exactly if the configuration or the environment says so, and
   without it nothing of the run is; any other execution leaves none. *)
Theorem C84_temporary :
  (forall preserve, started preserve -> oneshot = "run" \/ oneshot = "benchmark" -> ends main <> Never ->
     (tmp main = true <-> preserve = true \/ PRESERVE <> "") /\ (tmp main = false -> run_dir main = None) /\ (calls main = None -> run_dir main = None)) /\
  ((forall preserve, ~ started preserve) \/ (oneshot <> "run" /\ oneshot <> "benchmark") -> tmp main = false /\ run_dir main = None).
Proof.
  split.
  - intros preserve S O N.
    assert (K : forall preserve, keeps preserve = true <-> preserve = true \/ PRESERVE <> "").
    { intro p. unfold keeps. destruct (String.eqb_spec PRESERVE "") as [E|E]; split; auto; intros [X|X]; auto; contradiction. }
    destruct (calls main) as [[run st]|] eqn:C.
    + assert (CF : config = Some (Some preserve)) by apply S. destruct (C84_cleaned run st preserve C CF N) as (A & B).
      rewrite <- K. unfold keeps. destruct (String.eqb_spec PRESERVE "") as [E|E].
      * destruct preserve; [destruct (B (or_introl eq_refl)) as (X & Y)|destruct (A (conj eq_refl E)) as (X & Y)]; rewrite X; repeat split; congruence.
      * destruct (B (or_intror E)) as (X & Y). rewrite X. repeat split; congruence.
    + rewrite <- K. clear K. revert N C. destruct S as (V & CF & T). unfold OsModel.main, keeps. rewrite V, CF, T. unfold isOneShotMode. cbn [negb].
      assert (KK : (if negb (PRESERVE =? "")%string then true else preserve) = (if (PRESERVE =? "")%string then preserve else true)) by (destruct (PRESERVE =? "")%string; reflexivity).
      rewrite KK. clear KK. set (keep := if (PRESERVE =? "")%string then preserve else true).
      assert (Q : forall o : OsModel.outcome Settings Result Bench, tmp o = true -> run_dir o = None -> ends o <> Never ->
        let m := match ends o with Never => o | _ => if negb keep then {| OsModel.calls := calls o; OsModel.stdout := stdout o; OsModel.copied := copied o; OsModel.tmp := false; OsModel.run_dir := None; OsModel.ends := ends o |} else o end in
        (tmp m = true <-> keep = true) /\ (tmp m = false -> run_dir m = None) /\ (None = @None (Run * Settings) -> run_dir m = None)).
      { intros o X Y Z. destruct keep, (ends o) eqn:EE; try contradiction; cbn; rewrite ?X, ?Y; repeat split; congruence. }
      destruct O as [-> | ->].
      * change ("run" =? "benchmark")%string with false. change ("run" =? "run")%string with true. cbn [orb]. intros N C.
        assert (C' : calls (runOneshotRun keep) = None) by (destruct (ends (runOneshotRun keep)), keep; exact C). clear C N.
        assert (X : runOneshotRun keep = quits Settings Result Bench before).
        { revert C'. unfold OsModel.runOneshotRun. destruct (input =? "")%string; [reflexivity|]. destruct the_run as [run|]; [|reflexivity]. destruct Persist as [st|]; [|reflexivity]. cbn zeta.
          destruct (Grade run st) as [[x| |] tree]; cbn; try discriminate. destruct (results =? "")%string; [discriminate|]. cbn.
          destruct keep; cbn; (destruct tree as [t|]; [destruct (walk troubles before [] t) as [d []]; discriminate|discriminate]). }
        rewrite X. apply Q; [reflexivity|reflexivity|discriminate].
      * change ("benchmark" =? "benchmark")%string with true. cbn [orb]. intros _ _. apply Q; [reflexivity|reflexivity|discriminate].
  - unfold OsModel.main, started. intro H. destruct version; [split; reflexivity|]. destruct config as [[p|]|]; [|split; reflexivity ..].
    unfold isOneShotMode. destruct H as [H|(A & B)].
    + destruct temp_ok; [exfalso; apply (H p); auto|]. destruct (_ || _)%bool; split; reflexivity.
    + destruct (String.eqb_spec oneshot "benchmark"); [contradiction|]. destruct (String.eqb_spec oneshot "run"); [contradiction|]. split; reflexivity.
Qed.
(* A configuration that cannot be read: nothing is done; neither with -version. *)
Theorem C84_config : version = true \/ config = None \/ config = Some None ->
  calls main = None /\ copied main = before /\ (ends main = Exits 2 <-> version = false) /\ (ends main = Exits 0 <-> version = true) /\ (stdout main <> None <-> version = true).
Proof.
  unfold OsModel.main. destruct version; intros [H|[H|H]]; try discriminate; cbn; (try rewrite H); cbn; repeat split; try congruence; try discriminate; auto; intros; try congruence.
Qed.
(* When the program serves a grader instead. *)
Theorem C84_modes : ends main = Serves <-> version = false /\ (exists preserve, config = Some (Some preserve)) /\ oneshot <> "run" /\ oneshot <> "benchmark".
Proof.
  destruct (String.eqb_spec oneshot "run") as [R|R]; [|destruct (String.eqb_spec oneshot "benchmark") as [B|B]].
  1,2: split; [|intros (_ & _ & X & Y); contradiction]; intro H; exfalso;
    (assert (V : version = false) by (revert H; unfold OsModel.main; destruct version; [discriminate|reflexivity]));
    (assert (CF : exists p, config = Some (Some p)) by (revert H; unfold OsModel.main; rewrite V; destruct config as [[p|]|]; [eauto|discriminate|discriminate]));
    destruct CF as (p & CF);
    (assert (T : temp_ok = true) by (revert H; unfold OsModel.main, isOneShotMode; rewrite V, CF; try rewrite R; try rewrite B; cbn; destruct temp_ok; [reflexivity|discriminate]));
    destruct (C84_status p) as [X|(run & st & _ & [(X & _)|(X & _)])]; try congruence; try (split; auto); auto.
  unfold OsModel.main, isOneShotMode. destruct version; [split; [discriminate|intros (X & _); discriminate]|].
  destruct config as [[p|]|]; [|split; [discriminate|intros (_ & (p & X) & _); discriminate] ..].
  destruct (String.eqb_spec oneshot "benchmark") as [X|_]; [contradiction|]. destruct (String.eqb_spec oneshot "run") as [X|_]; [contradiction|]. cbn. split; eauto 8.
Qed.

(* ---- -results ---- *)
(* A run has been graded, with files in its directory. *)
Definition has_results (run : Run) (st : Settings) (r : Result) (t : node) : Prop :=
  calls main = Some (run, st) /\ Grade run st = (Success _ r, Some t) /\ results <> "" /\ ordered t /\ is_dir t.

Lemma results_walk run st r t : has_results run st r t -> exists d e, walk troubles before [] t = (d, e) /\ copied main = d /\ ends main = match e with Hangs => Never | _ => Exits 0 end /\ (e = Hangs -> tmp main = true).
Proof.
  intros (C & G & R & O & D). destruct (main_called run st C) as (p & _ & E). rewrite E. cbn [OsModel.copied OsModel.ends OsModel.tmp]. unfold finish. rewrite G.
  destruct (String.eqb_spec results "") as [X|_]; [contradiction|]. destruct (walk troubles before [] t) as [d e]. exists d, e. split; [reflexivity|]. destruct e; cbn; repeat split; congruence.
Qed.
(* Nothing else touches the directory. *)
Theorem C84_untouched : results = "" \/ (forall run st r, calls main = Some (run, st) -> fst (Grade run st) <> Success _ r) -> copied main = before.
Proof.
  intro H. destruct (calls main) as [[run st]|] eqn:C.
  - destruct (main_called run st C) as (p & _ & E). rewrite E. cbn [OsModel.copied]. unfold finish. destruct (Grade run st) as [[x| |] [t|]] eqn:G; try reflexivity.
    destruct H as [-> |H]; [reflexivity|]. exfalso. eapply H; [reflexivity|]. rewrite G. reflexivity.
  - clear H. revert C. unfold OsModel.main. destruct version; [reflexivity|]. destruct config as [[preserve|]|]; try reflexivity. destruct isOneShotMode; [|reflexivity]. destruct temp_ok; cbn [negb]; [|reflexivity].
    set (keep := if negb (PRESERVE =? "") then true else preserve).
    destruct (oneshot =? "benchmark")%string; [cbn; destruct keep; reflexivity|].
    intro C. assert (C' : calls (runOneshotRun keep) = None) by (destruct (ends (runOneshotRun keep)), keep; exact C). clear C.
    assert (X : copied (runOneshotRun keep) = before).
    { revert C'. unfold OsModel.runOneshotRun. destruct (input =? "")%string; [reflexivity|]. destruct the_run as [run|]; [|reflexivity]. destruct Persist as [st|]; [|reflexivity]. cbn zeta.
      destruct (Grade run st) as [[x| |] tree]; cbn; try discriminate. destruct (results =? "")%string; [discriminate|]. cbn.
      destruct keep; cbn; (destruct tree as [t|]; [destruct (walk troubles before [] t) as [d []]; discriminate|discriminate]). }
    destruct (ends (runOneshotRun keep)), keep; exact X.
Qed.
(* If nothing is in the way, there is then a copy of every file, and nothing else has
   changed (but the directories needed). *)
Theorem C84_copied : forall run st r t, has_results run st r t -> (forall p n, has t p n -> passes troubles before p n) ->
  ends main = Exits 0 /\
  (forall p n, leaf t p n -> copied_to (copied main) p n) /\
  (forall p, (forall n, ~ leaf t p n) -> copied main p = before p \/ before p = None /\ copied main p = Some ADir /\ exists q n, leaf t q n /\ above p q).
Proof.
  intros run st r t H P. destruct (results_walk _ _ _ _ H) as (d & e & W & -> & -> & _). destruct H as (_ & _ & _ & O & D).
  rewrite walk_run in W. assert (C := visits_consistent t O D).
  destruct (run_passes troubles _ C before) as (d1 & R). { intros q n I1. apply P, in_visits_root, I1. }
  rewrite W in R. injection R as <- ->. destruct (run_done troubles _ C before d W) as (F & _ & K). split; [reflexivity|]. split.
  - intros p n (L & N). apply K; [apply in_visits_root, L|exact N].
  - intros p N. destruct (F p) as [(n & I1 & X)|[X|(X1 & X2 & q & n & I1 & X3 & X4)]]; [|auto|].
    + exfalso. apply (N n). split; [apply in_visits_root, I1|exact X].
    + right. repeat (split; [assumption|]). exists q, n. split; [split; [apply in_visits_root, I1|exact X3]|exact X4].
Qed.
(* Otherwise the files before the first obstacle, in the order of their paths, have
   been copied, and those after it have not; the program does not end if the obstacle is
   a pipe. *)
Theorem C84_stops : forall run st r t, has_results run st r t -> (exists p n, has t p n /\ ~ passes troubles before p n) ->
  exists p n, has t p n /\ ~ passes troubles before p n /\
    (forall q m, has t q m -> earlier q p \/ above q p -> passes troubles before q m) /\
    (forall q m, leaf t q m -> earlier q p -> copied_to (copied main) q m) /\
    (forall q, (forall m, ~ leaf t q m) \/ earlier p q \/ above p q -> copied main q = before q \/ before q = None /\ copied main q = Some ADir /\ exists q' m, leaf t q' m /\ above q q') /\
    (forall q m, leaf t q m -> earlier p q \/ above p q -> copied main q = before q) /\
    (blocks troubles before p n -> ends main = Never /\ tmp main = true) /\ (~ blocks troubles before p n -> ends main = Exits 0).
Proof.
  intros run st r t H (p0 & n0 & H0 & NP). destruct (results_walk _ _ _ _ H) as (d & e & W & -> & -> & T). destruct H as (_ & _ & _ & O & D).
  rewrite walk_run in W. assert (C := visits_consistent t O D).
  assert (NE : e <> Done). { intros ->. destruct (run_done troubles _ C before d W) as (_ & P & _). apply NP, P, in_visits_root, H0. }
  assert (SO := visits_sorted t O []). destruct (run_stops troubles _ C before d e W NE) as (l1 & p & n & l2 & E & P1 & P2 & B & K & F).
  rewrite E in SO. destruct (sorted_split _ _ _ _ SO) as (S1 & S2). cbn in S1, S2.
  assert (IN : forall q m, has t q m <-> In (q, m) (l1 ++ (p, n) :: l2)) by (intros; rewrite <- E; symmetry; apply in_visits_root).
  assert (HP : has t p n) by (apply IN, in_or_app; right; left; reflexivity).
  assert (BEF : forall q m, has t q m -> earlier q p \/ above q p -> In (q, m) l1).
  { intros q m HQ Q. apply IN in HQ. apply in_app_or in HQ. destruct HQ as [I1|[I1|I1]]; [exact I1| |].
    - injection I1 as -> ->. exfalso. apply (prec_asym q q); unfold prec; tauto.
    - exfalso. apply (prec_asym q p); [unfold prec; tauto|]. apply (S2 _ I1). }
  assert (AFT : forall q m, In (q, m) l1 -> earlier p q \/ above p q -> False).
  { intros q m I1 Q. apply (prec_asym q p); [apply (S1 _ I1)|unfold prec; tauto]. }
  assert (NF : forall q, (forall m, ~ leaf t q m) \/ earlier p q \/ above p q -> d q = before q \/ before q = None /\ d q = Some ADir /\ exists q' m, leaf t q' m /\ above q q').
  { intros q Q. destruct (F q) as [(m & I1 & X)|[(-> & X)|[X|(X1 & X2 & q' & m & X3 & X4 & X5)]]].
    - exfalso. destruct Q as [Q|Q]; [apply (Q m); split; [apply IN, in_or_app; auto|exact X]|eapply AFT; eassumption].
    - exfalso. destruct Q as [Q|[Q|Q]]; [apply (Q n); split; assumption|eapply earlier_asym; eassumption|eapply above_asym; eassumption].
    - auto.
    - right. split; [exact X1|]. split; [exact X2|]. exists q', m. split; [|exact X5]. split; [|exact X4]. destruct X3 as [X3|X3]; [apply IN, in_or_app; auto|injection X3 as -> ->; exact HP]. }
  exists p, n. split; [exact HP|]. split; [exact P2|]. split; [|split; [|split; [exact NF|split; [|split]]]].
  - intros q m HQ Q. apply P1. apply BEF; assumption.
  - intros q m (HQ & X) Q. apply K; [apply BEF; auto|exact X].
  - intros q m (HQ & X) Q. destruct (NF q (or_intror Q)) as [Y|(_ & _ & q' & m' & (H' & _) & Z)]; [exact Y|]. exfalso. apply X.
    destruct Z as (x & s & ->). apply has_dir in H'. destruct H' as (l & H'). rewrite (has_unique t q m (Dir l) O HQ H'). eexists. reflexivity.
  - intro X. apply B in X. subst. auto.
  - intro X. destruct e; [reflexivity|reflexivity|]. exfalso. apply X, B. reflexivity.
Qed.
(* So the program never ends if there are pipes among the files, though nothing else
   is in the way. *)
Theorem C84_pipes : forall run st r t p0, has_results run st r t -> has t p0 Fifo ->
  (forall p n, has t p n -> n <> Fifo -> passes troubles before p n) -> (forall p, has t p Fifo -> reachable troubles before p /\ troubles p <> NoOpen) ->
  ends main = Never /\ tmp main = true.
Proof.
  intros run st r t p0 H H0 P Q.
  assert (NF : forall p, ~ passes troubles before p Fifo). { intros p [((l & X) & _)|(_ & _ & _ & (s & [X|X]) & _)]; discriminate. }
  destruct (C84_stops run st r t H) as (p & n & HP & N & _ & _ & _ & _ & B & _); [exists p0, Fifo; auto|].
  apply B. destruct n; try (exfalso; apply N, P; [exact HP|discriminate]). split; [reflexivity|]. apply Q, HP.
Qed.
End Oneshot.

(* ---- Instances ---- *)
Definition fine : path -> trouble := fun _ => Fine.
Definition empty : dir := fun _ => None.
Definition ex (oneshot source input results : string) (tree : node) : outcome unit string unit :=
  main fine unit string unit false false oneshot "" source input results
    (fun p => if String.eqb p "/home/me/a.b/sol.cpp" then Some "int main() {}" else None) (fun _ => None) (Some "{}") (fun _ => Some tt) (Some (Some false)) "" true
    (fun _ _ => (Success _ "AC", Some tree)) None (fun _ => true) empty.
Definition plain : node :=
  Dir [("Main", Dir [("bin", Dir [("Main", File "elf"); ("Main.cpp", File "int main() {}")]); ("compile.out", File "")]); ("easy.err", File ""); ("easy.out", File "3")].
Definition interactive : node :=
  Dir [("Main", Dir [("bin", Dir [("Main", File "elf")]); ("pipes", Dir [("in", Fifo); ("out", Fifo)])]); ("easy.out", File "3")].
(* C#: runner/sandbox.go:166-172 *)
Definition csharp : node :=
  Dir [("Main", Dir [("bin", Dir [("Main.cs", File "class Main {}"); ("Main.runtimeconfig.json", Link Nothing)])]); ("easy.out", File "3")].

(* Whether a tree is ordered, and what is at its paths: to check examples. *)
Fixpoint sortedb (l : list string) : bool :=
  match l with x :: (y :: _) as l' => match String.compare x y with Lt => sortedb l' | _ => false end | _ => true end.
Fixpoint orderedb (n : node) : bool :=
  match n with Dir l => sortedb (map fst l) && (fix all l := match l with [] => true | (_, n) :: l => orderedb n && all l end) l | _ => true end.
Lemma sortedb_sound (l : list (string * node)) : sortedb (map fst l) = true -> StronglySorted (fun a b => lt (fst a) (fst b)) l.
Proof.
  intro H. apply Sorted_StronglySorted; [intros x y z; apply compare_trans|]. induction l as [|[x n] l IH]; [constructor|]. destruct l as [|[y m] l]; [repeat constructor|].
  cbn [map fst sortedb] in H. destruct (String.compare x y) eqn:E; try discriminate. constructor; [apply IH, H|]. constructor. exact E.
Qed.
Lemma orderedb_sound n : orderedb n = true -> ordered n.
Proof.
  induction n as [n N|l IH] using node_rect'; intro H; [constructor; exact N|]. cbn [orderedb] in H. apply andb_prop in H. destruct H as (A & B). constructor; [apply sortedb_sound, A|].
  clear A. induction l as [|[y m] l IL]; [intros x n []|]. apply andb_prop in B. destruct B as (B1 & B2). intros x n [E|I1].
  - injection E as <- <-. apply (IH y m); [left; reflexivity|exact B1].
  - apply IL with (x := x); [intros z k I2; apply (IH z k); right; exact I2|exact B2|exact I1].
Qed.

(* With -source: the language is the extension of the file's name. *)
Example graded_source :
  calls _ _ _ (ex "run" "/home/me/a.b/sol.cpp" "problem" "" plain) =
    Some ({| AttemptID := 0; Source := "int main() {}"; Language := "cpp"; ProblemName := ""; InputHash := hash; MaxScore := Some 100%Q; Debug := false |}, tt) /\
  stdout _ _ _ (ex "run" "/home/me/a.b/sol.cpp" "problem" "" plain) = Some (inl (inl "AC")) /\ extension "/home/me/a.b/sol.cpp" "cpp" /\ forall l, ~ extension "/home/me/a.b/sol" l.
Proof.
  split; [reflexivity|]. split; [reflexivity|]. split.
  - exists "/home/me/a.b/sol". split; [reflexivity|]. unfold without. cbn. split; intros H; repeat (destruct H as [H|H]; [discriminate|]); exact H.
  - destruct (Ext_spec "/home/me/a.b/sol") as [(_ & H)|(l & H & _)]; [exact H|discriminate].
Qed.
Lemma passes_tree t : (forallb (fun x => match snd x with Fifo | Link Nothing | Link Directory => false | _ => true end) (visits [] t) = true) -> forall p n, has t p n -> passes fine empty p n.
Proof.
  intros H p n I1. apply in_visits_root in I1. rewrite forallb_forall in H. specialize (H _ I1). cbn in H.
  assert (R : reachable fine empty p) by (split; [discriminate|intros; discriminate]).
  assert (G : ~ is_dir n -> (exists s, reads n s) -> passes fine empty p n) by (intros D E; right; repeat (split; [assumption || (left; reflexivity)|]); discriminate).
  destruct n as [s| |[| |s]|l]; try discriminate.
  - apply G; [intros (l & X); discriminate|]. exists s. left. reflexivity.
  - apply G; [intros (l & X); discriminate|]. exists s. right. reflexivity.
  - left. split; [eexists; reflexivity|discriminate].
Qed.
(* The hypotheses of C84_copied. *)
Example copied_all : let o := ex "run" "/home/me/a.b/sol.cpp" "problem" "out" plain in
  (exists run st r, has_results fine unit string unit false false "run" "" "/home/me/a.b/sol.cpp" "problem" "out"
    (fun p => if String.eqb p "/home/me/a.b/sol.cpp" then Some "int main() {}" else None) (fun _ => None) (Some "{}") (fun _ => Some tt) (Some (Some false)) "" true
    (fun _ _ => (Success _ "AC", Some plain)) None (fun _ => true) empty run st r plain) /\
  (forall p n, has plain p n -> passes fine empty p n) /\
  copied _ _ _ o ["Main"; "bin"; "Main"] = Some (AFile "elf") /\ copied _ _ _ o ["easy.out"] = Some (AFile "3") /\ copied _ _ _ o ["Main"] = Some ADir /\ tmp _ _ _ o = false.
Proof.
  cbn zeta. split.
  { eexists _, tt, "AC". split; [reflexivity|]. split; [reflexivity|]. split; [discriminate|]. split; [apply orderedb_sound; reflexivity|eexists; reflexivity]. }
  split; [apply passes_tree; reflexivity|]. repeat split; reflexivity.
Qed.
(* The hypotheses of C84_pipes. *)
Example never_ends : let o := ex "run" "/home/me/a.b/sol.cpp" "problem" "out" interactive in
  stdout _ _ _ o = Some (inl (inl "AC")) /\ ends _ _ _ o = Never /\ tmp _ _ _ o = true /\ copied _ _ _ o ["easy.out"] = None.
Proof. repeat split; reflexivity. Qed.

(* Every run that is graded comes to an end. *)
Theorem C84_ends_refuted :
  ~ forall debug source input results read_file Grade,
    let o := main fine unit string unit false debug "run" "" source input results read_file (fun _ => None) (Some "{}") (fun _ => Some tt) (Some (Some false)) "" true Grade None (fun _ => true) empty in
    (forall run st t, Grade run st = (Success string "AC", Some t) -> ordered t) -> ends _ _ _ o <> Never.
Proof.
  intro H. apply (H false "/home/me/a.b/sol.cpp" "problem" "out" (fun p => if String.eqb p "/home/me/a.b/sol.cpp" then Some "int main() {}" else None) (fun _ _ => (Success _ "AC", Some interactive))).
  - intros run st t E. injection E as <-. apply orderedb_sound. reflexivity.
  - reflexivity.
Qed.
(* The exit status tells whether something was graded. *)
Theorem C84_status_refuted :
  ~ forall debug source input results read_file Grade,
    let o := main fine unit string unit false debug "run" "" source input results read_file (fun _ => None) (Some "{}") (fun _ => Some tt) (Some (Some false)) "" true Grade None (fun _ => true) empty in
    ends _ _ _ o = Exits 0 -> stdout _ _ _ o <> None.
Proof. intro H. apply (H false "prog" "problem" "" (fun _ => Some "") (fun _ _ => (Success _ "AC", Some plain))); reflexivity. Qed.
(* If the program ends well, each file that can be read has been copied. *)
Theorem C84_copied_refuted :
  ~ forall source input results read_file Grade t p s,
    let o := main fine unit string unit false false "run" "" source input results read_file (fun _ => None) (Some "{}") (fun _ => Some tt) (Some (Some false)) "" true Grade None (fun _ => true) empty in
    (forall run st, Grade run st = (Success string "AC", Some t)) -> ordered t -> results <> "" -> ends _ _ _ o = Exits 0 -> stdout _ _ _ o = Some (inl (inl "AC")) -> has t p (File s) ->
    copied _ _ _ o p = Some (AFile s).
Proof.
  intro H. specialize (H "/home/me/a.b/sol.cpp" "problem" "out" (fun p => if String.eqb p "/home/me/a.b/sol.cpp" then Some "int main() {}" else None) (fun _ _ => (Success _ "AC", Some csharp)) csharp ["easy.out"] "3"). cbn zeta in H.
  specialize (H (fun _ _ => eq_refl) (orderedb_sound csharp eq_refl)). assert (X : "out" <> "") by discriminate. specialize (H X eq_refl eq_refl).
  assert (Y : has csharp ["easy.out"] (File "3")) by (econstructor; [right; left; reflexivity|constructor]). specialize (H Y). vm_compute in H. discriminate.
Qed.
(* With -oneshot the program does not serve a grader. *)
Theorem C84_modes_refuted : ~ forall oneshot tree, oneshot <> "" -> ends _ _ _ (ex oneshot "" "" "" tree) <> Serves.
Proof. intro H. apply (H "bench" plain); [discriminate|reflexivity]. Qed.

Print Assumptions C84_graded. Print Assumptions C84_printed. Print Assumptions C84_status. Print Assumptions C84_cleaned. Print Assumptions C84_temporary. Print Assumptions C84_config.
Print Assumptions C84_modes. Print Assumptions C84_untouched. Print Assumptions C84_copied. Print Assumptions C84_stops. Print Assumptions C84_pipes.
Print Assumptions C84_ends_refuted. Print Assumptions C84_status_refuted. Print Assumptions C84_copied_refuted. Print Assumptions C84_modes_refuted.

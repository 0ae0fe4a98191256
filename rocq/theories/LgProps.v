(* C88: the log of a run. *)
From Coq Require Import String Ascii List Bool Arith Lia.
From Verif Require Import LgModel LgSpec LgProofs.
Import ListNotations.
Local Open Scope string_scope.

Section Props.
Context {record : Type}.
Variable render : nat -> record -> string.
Variable passes : record -> bool.
Notation step := (LgModel.step record render passes). Notation run := (LgModel.run record render passes).
Notation start := (NewContext record). Notation LogBuffer := (LgModel.LogBuffer record). Notation stored := (LgModel.stored record).
Implicit Types h : list (op record).

(* The log of a context has what was logged with it, and with the contexts made from it,
   and the sections added to it, in order, and nothing else. *)
Theorem C88_contents : forall h st, run h start = Some st -> forall c,
  (LogBuffer c st <> None <-> 0 < c <= List.length (origins h)) /\
  forall b, LogBuffer c st = Some b -> exists l, Forall2 (adds render h c) h l /\ b = text l.
Proof.
  intros h st R c. destruct (run_inv render passes h st R) as ([IL IO IH IB IM] & K). unfold LgModel.LogBuffer.
  destruct (nth_error (contexts record st) c) as [x|] eqn:N.
  - destruct (IB _ _ N) as (A & B). split; [|exact B]. assert (c < List.length (contexts record st)) by (apply nth_error_Some; congruence).
    split; [intro X; assert (c <> 0) by (intro Z; apply X, A, Z); lia|]. intros X Y. apply A in Y. lia.
  - apply nth_error_None in N. split; [split; [congruence|lia]|discriminate].
Qed.
(* ... which says it all: what each step adds is one text. *)
Lemma adds_unique h c o s t : adds render h c o s -> adds render h c o t -> s = t.
Proof. intros A B. destruct A; inversion B; subst; congruence || contradiction. Qed.

(* The contexts form a tree: those that hear the same are above one another. *)
Theorem C88_tree : forall h c d e, hears h c e -> hears h d e -> hears h c d \/ hears h d c.
Proof.
  intros h c d e A. revert d. induction A as [|e f N A IH]; intros d B; [auto|].
  inversion B as [|e0 f0 N' B']; subst; [left; econstructor; eassumption|]. rewrite N in N'. injection N' as <-. apply IH, B'.
Qed.
(* So what concerns one run is not in the log of another: neither their lines nor
   their sections, whatever is made of their contexts. *)
Theorem C88_apart : forall h st, run h start = Some st -> forall c d,
  nth_error (origins h) c = Some 0 -> nth_error (origins h) d = Some 0 -> c <> d ->
  (forall e r s, hears h (S d) e -> adds render h (S c) (Line e r) s -> s = "") /\
  (forall e t s, hears h (S d) e -> adds render h (S c) (Write e t) s -> s = "").
Proof.
  intros h st R c d C D N. destruct (run_inv render passes h st R) as ([IL IO IH IB IM] & K).
  assert (X : forall c d, nth_error (origins h) d = Some 0 -> c <> d -> ~ hears h (S c) (S d)).
  { intros a b B NE H. inversion H as [|b0 e N' H']; subst; [congruence|]. rewrite B in N'. injection N' as <-. apply hears_le in H'; [lia|exact IO]. }
  assert (Y : forall e, hears h (S d) e -> ~ hears h (S c) e).
  { intros e A B. destruct (C88_tree h _ _ _ A B) as [H|H]; [eapply (X d c); eauto|eapply (X c d); eauto]. }
  split; intros e r s A B; inversion B; subst; try reflexivity; exfalso.
  - eapply Y; eauto.
  - eapply (X d c); eauto.
Qed.
(* Everything logged that passes the level is also in the log of the process, once, in
   order; sections are not. *)
Theorem C88_main : forall h st, run h start = Some st ->
  main_log record st = flat_map (fun o => match o with Line _ r => if passes r then [r] else [] | _ => [] end) h.
Proof. intros h st R. destruct (run_inv render passes h st R) as ([IL IO IH IB IM] & K). exact IM. Qed.
(* A log only grows: what is stored is the beginning of it. *)
Theorem C88_grows : forall h k st st', run h start = Some st -> run (h ++ k) start = Some st' ->
  forall c b, LogBuffer c st = Some b -> stored c st = b /\ exists s, LogBuffer c st' = Some (b ++ s).
Proof.
  intros h k st st' R R' c b B. split; [unfold LgModel.stored; rewrite B; reflexivity|].
  destruct (run_inv render passes h st R) as (I & K). pose proof (inv_origins _ _ _ _ I) as IO.
  destruct (C88_contents _ _ R c) as (X & Y). destruct (Y b B) as (l & F & ->). destruct (C88_contents _ _ R' c) as (X' & Y').
  assert (NN : LogBuffer c st' <> None). { apply X'. rewrite origins_app, app_length. assert (LogBuffer c st <> None) by congruence. apply X in H. lia. }
  destruct (LogBuffer c st') as [b'|] eqn:B'; [|contradiction]. destruct (Y' b' eq_refl) as (l' & F' & ->). apply Forall2_app_inv_l in F'. destruct F' as (l1 & l2 & F1 & F2 & ->).
  exists (text l2). rewrite text_app. f_equal. f_equal. f_equal.
  pose proof (Forall2_adds_app render h k c IO h l K F) as G. clear -F1 G. revert F1 G. generalize (h ++ k)%list as hk. intros hk F1 G. revert l1 F1. induction G; intros l1 F1; inversion F1; subst; try reflexivity. f_equal; [eapply adds_unique; eassumption|apply IHG; assumption].
Qed.
(* Which steps are possible; only a section without a log panics. *)
Theorem C88_defined : forall h st, run h start = Some st -> forall o,
  step st o = None <-> match o with DebugContext c => List.length (origins h) < c | Line c _ => List.length (origins h) < c | Write c _ => c = 0 \/ List.length (origins h) < c end.
Proof.
  intros h st R o. destruct (run_inv render passes h st R) as ([IL IO IH IB IM] & K).
  assert (X : forall c, nth_error (contexts record st) c = None <-> List.length (origins h) < c) by (intro c; rewrite nth_error_None; lia).
  destruct o as [c|c r|c s]; unfold LgModel.step; (destruct (nth_error (contexts record st) c) as [x|] eqn:N; [|rewrite <- X; tauto]).
  - rewrite <- X. split; congruence.
  - rewrite <- X. split; congruence.
  - destruct (IB _ _ N) as (A & _). rewrite <- X, N. destruct (logBuffer x) as [b|].
    + split; [discriminate|]. intros [Z|Z]; [apply A in Z; discriminate|discriminate].
    + split; [intros _; left; apply A; reflexivity|auto].
Qed.

(* If nothing interrupts a call, the log of a context is made of lines and whole
   sections, each with the name and the contents given. *)
Theorem C88_sections : forall (ks : list (call record)) st, run (flat_map steps ks) start = Some st -> Forall whole ks ->
  forall c b, LogBuffer c st = Some b -> exists ls, Forall2 (adds_items render (flat_map steps ks) c) ks ls /\ b = log_text (List.concat ls).
Proof.
  intros ks st R W c b B. destruct (C88_contents _ _ R c) as (_ & Y). destruct (Y b B) as (l & F & ->). clear Y B R.
  revert F. generalize (flat_map steps ks) at 1 3 as h. intros h F. revert l F W.
  induction ks as [|k ks IH]; intros l F W; cbn [flat_map] in F.
  - inversion F; subst. exists []. split; [constructor|reflexivity].
  - inversion W as [|k0 ks0 W1 W2]; subst. apply Forall2_app_inv_l in F. destruct F as (l1 & l2 & F1 & F2 & ->). destruct (IH l2 F2 W2) as (ls & G & E).
    assert (X : exists i, adds_items render h c k i /\ text l1 = log_text i).
    { destruct k as [[d|d r|d s]|d name contents]; [| |contradiction|]; cbn [steps AppendLogSection] in F1.
      - inversion F1 as [|o s os ss A A' Q1 Q2]; subst. inversion A'; subst. inversion A; subst. exists []. split; [constructor|reflexivity].
      - inversion F1 as [|o s os ss A A' Q1 Q2]; subst. inversion A'; subst. inversion A; subst; [exists [ALine (render c r)]|exists []]; (split; [constructor; assumption|]); cbn; rewrite ?app_nil_str; reflexivity.
      - inversion F1 as [|o1 s1 os1 ss1 A1 F1' Q1 Q2]; subst. inversion F1' as [|o2 s2 os2 ss2 A2 F2' Q3 Q4]; subst. inversion F2' as [|o3 s3 os3 ss3 A3 F3' Q5 Q6]; subst. inversion F3'; subst.
        inversion A1 as [| |s' E1|d' s' N1 E1|]; subst; inversion A2; subst; try contradiction; inversion A3; subst; try contradiction.
        + eexists [ASection _ _]. split; [constructor|]. unfold log_text. cbn [map item_text text fold_right]. rewrite !app_nil_str. reflexivity.
        + exists []. split; [constructor; assumption|reflexivity]. }
    destruct X as (i & P & Q). exists (i :: ls). split; [constructor; assumption|]. unfold log_text in *. cbn [List.concat]. rewrite map_app, !text_app. congruence.
Qed.
(* And such a log says unambiguously which: from honest runners, it has one reading. *)
Theorem C88_unambiguous : forall l m, Forall honest l -> Forall honest m -> log_text l = log_text m -> l = m.
Proof. intros l m F G E. exact (unambiguous l F m G E). Qed.
(* What a runner collects is honest, under any name: whole lines, none of them a marker. *)
Theorem C88_runner : forall h st, run h start = Some st -> forall c b, LogBuffer c st = Some b ->
  (forall d s, ~ In (Write d s) h) -> (forall r, is_line (render c r) /\ forall s, render c r <> "================ " ++ s) ->
  forall name, no_newline name -> honest (ASection name b).
Proof.
  intros h st R c b B W L name N. destruct (C88_contents _ _ R c) as (_ & Y). destruct (Y b B) as (l & F & ->). clear Y B R.
  split; [exact N|]. assert (X : exists m, text l = text m /\ forall x, In x m -> exists r, x = render c r).
  { revert F W. generalize h at 1. intros h' F. induction F as [|o s os ss A F IH]; intro W; [exists []; split; [reflexivity|intros x []]|].
    destruct IH as (m & E & P); [intros d t I; eapply W; right; exact I|].
    inversion A as [d r H|d r H|t|d t H|d]; subst.
    - exists (render c r :: m). split; [cbn; f_equal; exact E|]. intros x [<-|I]; [eauto|auto].
    - exists m. auto.
    - exfalso. eapply W. left. reflexivity.
    - exists m. auto.
    - exists m. auto. }
  destruct X as (m & -> & P). exists m. split; [split; [reflexivity|]|].
  - intros x I. destruct (P x I) as (r & ->). apply L.
  - intro I. destruct (P _ I) as (r & E). destruct (L r) as (_ & Q). apply (Q ("/" ++ name ++ "  ================" ++ newline)). rewrite <- E. reflexivity.
Qed.
End Props.

(* ---- a run, judged twice ---- *)
Definition say (c : nat) (r : string) : string := "t=1 lvl=info msg=" ++ r ++ newline.
Definition all (r : string) : bool := true.
Definition h1 : list (op string) :=
  [DebugContext 0; DebugContext 0; Line 1 "new"; Line 2 "other"; Line 0 "tick"] ++ AppendLogSection 1 "runner-1" (say 0 "JE") ++ [Line 1 "retry"] ++ AppendLogSection 1 "runner-2" (say 0 "AC") ++ AppendLogSection 2 "runner-2" (say 0 "WA").
Example h1_met : exists st, LgModel.run string say all h1 (NewContext string) = Some st /\
  LogBuffer string 1 st = Some (log_text [ALine (say 1 "new"); ASection "runner-1" (say 0 "JE"); ALine (say 1 "retry"); ASection "runner-2" (say 0 "AC")]) /\
  LogBuffer string 2 st = Some (log_text [ALine (say 1 "other"); ASection "runner-2" (say 0 "WA")]) /\
  main_log string st = ["new"; "other"; "tick"; "retry"] /\ LogBuffer string 0 st = None.
Proof. eexists. split; [reflexivity|]. vm_compute. repeat split; reflexivity. Qed.
Lemma say_line r : no_newline r -> is_line (say 0 r) /\ forall s', say 0 r <> "================ " ++ s'.
Proof.
  intro N. split; [|intros s'; discriminate]. exists ("t=1 lvl=info msg=" ++ r). split; [unfold say; rewrite app_assoc_str; reflexivity|].
  rewrite las_app, in_app_iff. intros [H|H]; [cbn in H; intuition discriminate|exact (N H)].
Qed.
Example h1_honest : Forall honest [ALine (say 1 "new"); ASection "runner-1" (say 0 "JE"); ALine (say 1 "retry"); ASection "runner-2" (say 0 "AC")].
Proof.
  assert (NN : forall s, forallb (fun c => negb (Ascii.eqb c "010")) (list_ascii_of_string s) = true -> no_newline s).
  { intros s H I. rewrite forallb_forall in H. specialize (H _ I). discriminate. }
  assert (L : forall r, no_newline r -> honest (ALine (say 1 r))) by (intros r N; destruct (say_line r N); split; assumption).
  assert (S : forall n r, no_newline n -> no_newline r -> honest (ASection n (say 0 r))).
  { intros n r N M. split; [exact N|]. exists [say 0 r]. split; [split; [cbn; rewrite app_nil_str; reflexivity|]|]; [intros x [<-|[]]; apply say_line, M|]. intros [E|[]]. destruct (say_line r M) as (_ & Q). eapply Q. rewrite E. reflexivity. }
  repeat constructor; try (apply NN; reflexivity); first [apply L | apply S | idtac]; try (apply NN; reflexivity).
  all: try (destruct (L "new" ltac:(apply NN; reflexivity)); assumption). 
Qed.

Lemma no_newline_b s : forallb (fun c => negb (Ascii.eqb c "010")) (list_ascii_of_string s) = true -> no_newline s.
Proof. intros H I. rewrite forallb_forall in H. specialize (H _ I). discriminate. Qed.
(* A log can be read without trusting the runners. *)
Theorem C88_forged_refuted : ~ forall n s l, no_newline n -> Forall honest l -> log_text [ASection n s] = log_text l -> l = [ASection n s].
Proof.
  intro H. set (l := [ASection "a" ""; ASection "b" (say 0 "AC"); ASection "a" ""]).
  assert (Q : ~ honest (ASection "a" (end_line "a" ++ start_line "b" ++ say 0 "AC" ++ end_line "b" ++ start_line "a"))).
  { intros (_ & k & (E & L) & NI). apply NI. assert (X : k = [end_line "a"; start_line "b"; say 0 "AC"; end_line "b"; start_line "a"]).
    - apply lines_unique; [apply Forall_forall, L| |rewrite <- E; reflexivity].
      repeat constructor; first [apply closing_line | apply opening_line | apply say_line]; apply no_newline_b; reflexivity.
    - rewrite X. left. reflexivity. }
  apply Q. assert (F : Forall honest l).
  { assert (A : forall n, no_newline n -> honest (ASection n "")) by (intros n N; split; [exact N|]; exists []; split; [split; [reflexivity|intros x []]|intros []]).
    constructor; [apply A, no_newline_b; reflexivity|]. constructor; [|constructor; [apply A, no_newline_b; reflexivity|constructor]].
    split; [apply no_newline_b; reflexivity|]. exists [say 0 "AC"]. split; [split; [reflexivity|intros x [<-|[]]; apply say_line, no_newline_b; reflexivity]|intros [E|[]]; discriminate E]. }
  assert (N : no_newline "a") by (apply no_newline_b; reflexivity).
  specialize (H "a" _ l N F (eq_refl : log_text [ASection "a" (end_line "a" ++ start_line "b" ++ say 0 "AC" ++ end_line "b" ++ start_line "a")] = log_text l)).
  discriminate H.
Qed.
(* The end of a section is a line of the log, whatever its contents. *)
Theorem C88_unterminated_refuted : ~ forall n s l, no_newline n -> lines_of (item_text (ASection n s)) l -> In (end_line n) l.
Proof.
  intro H. assert (N : no_newline "a") by (apply no_newline_b; reflexivity).
  specialize (H "a" "panic" [start_line "a"; "panic" ++ end_line "a"] N). destruct H as [E|[E|[]]]; try discriminate E.
  split; [reflexivity|]. intros x [<-|[<-|[]]]; [apply opening_line, N|]. exists ("panic================ /a  ================"). split; [reflexivity|apply no_newline_b; reflexivity].
Qed.
(* What is logged meanwhile does not get into a section. *)
Theorem C88_interrupted_refuted : ~ forall a b (h : list (op string)) st n s l,
  AppendLogSection 1 n s = (a ++ b)%list -> LgModel.run string say all (DebugContext 0 :: a ++ h ++ b) (NewContext string) = Some st ->
  Forall honest l -> LogBuffer string 1 st = Some (log_text l) -> In (ASection n s) l.
Proof.
  intro H. assert (N : forall n, forallb (fun c => negb (Ascii.eqb c "010")) (list_ascii_of_string n) = true -> no_newline n) by (exact no_newline_b).
  specialize (H [Write 1 (start_line "r")] [Write 1 (say 0 "AC"); Write 1 (end_line "r")] [Line 1 "timeout"]). 
  destruct (LgModel.run string say all (DebugContext 0 :: [Write 1 (start_line "r")] ++ [Line 1 "timeout"] ++ [Write 1 (say 0 "AC"); Write 1 (end_line "r")]) (NewContext string)) as [st|] eqn:R; [|discriminate R].
  specialize (H st "r" (say 0 "AC") [ASection "r" (say 1 "timeout" ++ say 0 "AC")] eq_refl eq_refl).
  destruct H as [E|[]]; [| |discriminate E].
  - constructor; [|constructor]. split; [apply N; reflexivity|]. exists [say 1 "timeout"; say 0 "AC"]. split; [split; [reflexivity|]|].
    + intros x [<-|[<-|[]]]; apply say_line, N; reflexivity.
    + intros [E|[E|[]]]; discriminate E.
  - injection R as <-. vm_compute. reflexivity.
Qed.
(* What is stored has everything that was said about the run. *)
Theorem C88_late_refuted : ~ forall (h k : list (op string)) st st', LgModel.run string say all h (NewContext string) = Some st ->
  LgModel.run string say all (h ++ k) (NewContext string) = Some st' -> LogBuffer string 1 st' = Some (stored string 1 st).
Proof.
  intro H. specialize (H [DebugContext 0] [Line 1 "Attempting to close an already closed run"]).
  destruct (LgModel.run string say all [DebugContext 0] (NewContext string)) as [st|] eqn:R; [|discriminate R].
  destruct (LgModel.run string say all ([DebugContext 0] ++ [Line 1 "Attempting to close an already closed run"]) (NewContext string)) as [st'|] eqn:R'; [|discriminate R'].
  specialize (H st st' eq_refl eq_refl). injection R as <-. injection R' as <-. vm_compute in H. discriminate H.
Qed.

Print Assumptions C88_contents. Print Assumptions C88_tree. Print Assumptions C88_apart. Print Assumptions C88_main. Print Assumptions C88_grows.
Print Assumptions C88_defined. Print Assumptions C88_sections. Print Assumptions C88_unambiguous. Print Assumptions C88_runner.
Print Assumptions C88_forged_refuted. Print Assumptions C88_unterminated_refuted. Print Assumptions C88_interrupted_refuted. Print Assumptions C88_late_refuted.

(* Lemmas for C88. *)
From Coq Require Import String Ascii List Bool Arith Lia.
From Verif Require Import LgModel LgSpec.
Import ListNotations.
Local Open Scope string_scope.

Lemma app_nil_str s : s ++ "" = s.
Proof. induction s; cbn; congruence. Qed.
Lemma app_assoc_str a b c : (a ++ b) ++ c = a ++ (b ++ c).
Proof. induction a; cbn; congruence. Qed.
Lemma text_app l m : text (l ++ m)%list = text l ++ text m.
Proof. induction l; cbn; [reflexivity|]. rewrite app_assoc_str. f_equal. exact IHl. Qed.
Lemma las_app a b : list_ascii_of_string (a ++ b) = (list_ascii_of_string a ++ list_ascii_of_string b)%list.
Proof. induction a; cbn; congruence. Qed.
Lemma str_app_inv_head a b c : a ++ b = a ++ c -> b = c.
Proof. induction a; cbn; [auto|]. intro E. injection E. auto. Qed.
Lemma las_inj a b : list_ascii_of_string a = list_ascii_of_string b -> a = b.
Proof. intro E. rewrite <- (string_of_list_ascii_of_string a), <- (string_of_list_ascii_of_string b). congruence. Qed.
Lemma str_app_inv_tail a b c : a ++ c = b ++ c -> a = b.
Proof. intro E. apply (f_equal list_ascii_of_string) in E. rewrite !las_app in E. apply app_inv_tail in E. apply las_inj, E. Qed.

(* ---- the tree of contexts ---- *)
Section Tree.
Context {record : Type}.
Variable render : nat -> record -> string.
Variable passes : record -> bool.
Notation step := (LgModel.step record render passes). Notation run := (LgModel.run record render passes).
Notation emit := (LgModel.emit record render passes). Notation state := (state record).
Notation LogBuffer := (LgModel.LogBuffer record). Notation contexts := (contexts record). Notation write := (LgModel.write record).

Lemma origins_app h k : origins (h ++ k : list (op record)) = (origins h ++ origins k)%list.
Proof. unfold origins. apply flat_map_app. Qed.
Lemma hears_app h k c d : hears h c d -> hears (h ++ k : list (op record)) c d.
Proof.
  induction 1 as [|d e N _ IH]; [constructor|]. econstructor; [|exact IH]. rewrite origins_app, nth_error_app1; [exact N|].
  apply nth_error_Some. congruence.
Qed.
Lemma hears_back h k c d : d <= length (origins h) -> (forall n e, nth_error (origins h) n = Some e -> e <= n) -> hears (h ++ k : list (op record)) c d -> hears h c d.
Proof.
  intros L W H. induction H as [|d e N _ IH]; [constructor|]. rewrite origins_app in N. rewrite nth_error_app1 in N by lia.
  econstructor; [exact N|]. apply IH. specialize (W _ _ N). lia.
Qed.

Lemma update_length {A} n (f : A -> A) l : length (update n f l) = length l.
Proof. revert n. induction l as [|x l IH]; intros [|n]; cbn; auto. Qed.
Lemma update_nth {A} n (f : A -> A) l m : nth_error (update n f l) m = if Nat.eqb n m then option_map f (nth_error l m) else nth_error l m.
Proof. revert n m. induction l as [|x l IH]; intros [|n] [|m]; cbn; try reflexivity; [destruct (Nat.eqb n m); reflexivity|apply IH]. Qed.

(* The buffers of a handler. *)
Fixpoint bufs (h : handler) : list nat := match h with Main => [] | MultiHandler b h => b :: bufs h end.
Lemma emit_length r h : forall st, length (contexts (emit r h st)) = length (contexts st).
Proof. induction h as [|b h IH]; intro st; cbn; [destruct (passes r); reflexivity|]. rewrite IH. cbn. apply update_length. Qed.
Lemma emit_nth r h : NoDup (bufs h) -> forall st c x, nth_error (contexts st) c = Some x ->
  nth_error (contexts (emit r h st)) c = Some (if in_dec Nat.eq_dec c (bufs h) then append_to (render c r) x else x).
Proof.
  induction h as [|b h IH]; intros D st c x N; cbn [bufs LgModel.emit].
  - destruct (in_dec _ c []) as [[]|]. destruct (passes r); exact N.
  - inversion D as [|b0 l0 N1 N2]; subst.
    destruct (Nat.eq_dec b c) as [->|NE].
    + erewrite IH; [|exact N2|cbn; rewrite update_nth, Nat.eqb_refl, N; reflexivity].
      destruct (in_dec _ c (bufs h)) as [I1|_]; [contradiction|]. destruct (in_dec _ c (c :: bufs h)) as [_|X]; [reflexivity|exfalso; apply X; left; reflexivity].
    + erewrite IH; [|exact N2|cbn; rewrite update_nth; destruct (Nat.eqb_spec b c); [contradiction|exact N]].
      destruct (in_dec _ c (bufs h)) as [I1|X], (in_dec _ c (b :: bufs h)) as [I2|Y]; try reflexivity; exfalso.
      * apply Y. right. exact I1.
      * destruct I2 as [I2|I2]; [congruence|contradiction].
Qed.
Lemma emit_main r h : forall st, main_log record (emit r h st) = (main_log record st ++ (if passes r then [r] else []))%list.
Proof. induction h as [|b h IH]; intro st; cbn; [destruct (passes r); cbn; [reflexivity|rewrite app_nil_r; reflexivity]|]. rewrite IH. reflexivity. Qed.

(* What is true after a history. *)
Record Inv (h : list (op record)) (st : state) : Prop := {
  inv_length : length (contexts st) = S (length (origins h));
  inv_origins : forall n e, nth_error (origins h) n = Some e -> e <= n;
  inv_handler : forall d x, nth_error (contexts st) d = Some x ->
     NoDup (bufs (Log x)) /\ forall c, In c (bufs (Log x)) <-> c <> 0 /\ hears h c d;
  inv_buffer : forall c x, nth_error (contexts st) c = Some x -> (logBuffer x = None <-> c = 0) /\
     forall b, logBuffer x = Some b -> exists l, Forall2 (adds render h c) h l /\ b = text l;
  inv_main : main_log record st = flat_map (fun o => match o with Line _ r => if passes r then [r] else [] | _ => [] end) h }.

Lemma hears_le h c d : (forall n e, nth_error (origins h) n = Some e -> e <= n) -> @hears record h c d -> c <= d.
Proof. intro W. induction 1 as [|d e N _ IH]; [lia|]. specialize (W _ _ N). lia. Qed.

(* Additions to the end of the history change nothing before. *)
Definition known (n : nat) (o : op record) : Prop := match o with DebugContext c | Line c _ | Write c _ => c <= n end.
Lemma adds_app h k c o s : (forall n e, nth_error (origins h) n = Some e -> e <= n) -> known (length (origins h)) o ->
  adds render h c o s -> adds render (h ++ k)%list c o s.
Proof.
  intros W K H. destruct H as [d r H|d r H|s|d s H|d]; try (constructor; assumption).
  - constructor. apply hears_app, H.
  - constructor. intro X. apply H. eapply hears_back; eauto.
Qed.

Definition all_known (h : list (op record)) : Prop := Forall (known (length (origins h))) h.
Lemma Forall2_snoc {A B} (R : A -> B -> Prop) l m a b : Forall2 R l m -> R a b -> Forall2 R (l ++ [a]) (m ++ [b]).
Proof. intros F H. apply Forall2_app; [exact F|]. constructor; [exact H|constructor]. Qed.
Lemma Forall2_adds_app h k c : (forall n e, nth_error (origins h) n = Some e -> e <= n) ->
  forall h' l, Forall (known (length (origins h))) h' -> Forall2 (adds render h c) h' l -> Forall2 (adds render (h ++ k)%list c) h' l.
Proof.
  intros W h' l K F. revert K. induction F as [|o s h' l H F IH]; intro K; [constructor|]. inversion K; subst. constructor; [apply adds_app; assumption|apply IH; assumption].
Qed.
Lemma known_mono n m o : n <= m -> known n o -> known m o.
Proof. destruct o; cbn; lia. Qed.
Lemma text_snoc l s : text (l ++ [s])%list = text l ++ s.
Proof. rewrite text_app. cbn. rewrite app_nil_str. reflexivity. Qed.

Lemma step_inv h st o st' : Inv h st -> all_known h -> step st o = Some st' -> Inv (h ++ [o])%list st' /\ all_known (h ++ [o])%list.
Proof.
  intros I K S. destruct I as [IL IO IH IB IM]. unfold LgModel.step in S.
  assert (KN : forall c x, nth_error (contexts st) c = Some x -> c <= length (origins h)).
  { intros c x N. assert (c < length (contexts st)) by (apply nth_error_Some; congruence). lia. }
  assert (K' : known (length (origins h)) o).
  { destruct o as [c|c r|c s]; (destruct (nth_error (contexts st) c) as [x|] eqn:N; [|discriminate]); cbn; eapply KN; exact N. }
  assert (AK : all_known (h ++ [o])%list).
  { unfold all_known. apply Forall_app. rewrite origins_app, app_length. split.
    - eapply Forall_impl; [|exact K]. intros a X. eapply known_mono; [|exact X]. lia.
    - constructor; [|constructor]. eapply known_mono; [|exact K']. lia. }
  split; [|exact AK]. destruct o as [p|d r|d s].
  - (* DebugContext *)
    destruct (nth_error (contexts st) p) as [x|] eqn:N; [|discriminate]. injection S as <-.
    assert (O : origins (h ++ [DebugContext p])%list = (origins h ++ [p])%list) by (rewrite origins_app; reflexivity).
    assert (W : forall n e, nth_error (origins (h ++ [DebugContext p])%list) n = Some e -> e <= n).
    { intros n e X. rewrite O in X. destruct (lt_dec n (length (origins h))) as [L|L].
      - rewrite nth_error_app1 in X by exact L. apply IO, X.
      - rewrite nth_error_app2 in X by lia. destruct (n - length (origins h)) as [|[|k]] eqn:E; cbn in X; try discriminate. injection X as <-. cbn in K'. lia. }
    split; cbn [LgModel.contexts LgModel.main_log].
    + rewrite O, !app_length, IL. cbn. lia.
    + exact W.
    + intros d y ND. destruct (lt_dec d (length (contexts st))) as [L|L].
      * rewrite nth_error_app1 in ND by exact L. destruct (IH _ _ ND) as (A & B). split; [exact A|]. intro c. rewrite B. split; intros (X & Y); (split; [exact X|]).
        -- apply hears_app, Y.
        -- eapply hears_back; [|exact IO|exact Y]. lia.
      * rewrite nth_error_app2 in ND by lia. destruct (d - length (contexts st)) as [|[|k]] eqn:E; cbn in ND; try discriminate. injection ND as <-.
        assert (d = S (length (origins h))) by lia. subst d. cbn [Log bufs]. rewrite IL. destruct (IH _ _ N) as (A & B).
        assert (NI : ~ In (S (length (origins h))) (bufs (Log x))). { intro I1. apply B in I1. destruct I1 as (_ & Y). apply hears_le in Y; [|exact IO]. specialize (KN _ _ N). lia. }
        split; [constructor; assumption|]. intro c. cbn. split.
        -- intros [<-|I1]; [split; [discriminate|constructor]|]. apply B in I1. destruct I1 as (X & Y). split; [exact X|].
           econstructor; [rewrite O, nth_error_app2, Nat.sub_diag by lia; reflexivity|]. apply hears_app, Y.
        -- intros (X & Y). inversion Y as [|d' e N' Y']; subst; [left; reflexivity|]. right. rewrite O, nth_error_app2, Nat.sub_diag in N' by lia. cbn in N'. injection N' as <-.
           apply B. split; [exact X|]. eapply hears_back; [|exact IO|exact Y']. exact K'.
    + intros c y NC. destruct (lt_dec c (length (contexts st))) as [L|L].
      * rewrite nth_error_app1 in NC by exact L. destruct (IB _ _ NC) as (A & B). split; [exact A|]. intros b E. destruct (B b E) as (l & F & ->).
        exists (l ++ [""])%list. split; [|rewrite text_snoc, app_nil_str; reflexivity]. apply Forall2_snoc; [|constructor]. apply Forall2_adds_app; assumption.
      * rewrite nth_error_app2 in NC by lia. destruct (c - length (contexts st)) as [|[|k]] eqn:E; cbn in NC; try discriminate. injection NC as <-. cbn. split; [split; [discriminate|lia]|].
        intros b X. injection X as <-. exists (map (fun _ => "") (h ++ [DebugContext p])%list). split.
        -- assert (KK : Forall (known (length (origins h))) (h ++ [DebugContext p])%list) by (apply Forall_app; split; [exact K|constructor; [exact K'|constructor]]).
           assert (c = S (length (origins h))) by lia. subst c. revert KK. generalize (h ++ [DebugContext p])%list at 1 3 4. intro hh. induction hh as [|o hh IHh]; intro KK; [constructor|]. inversion KK; subst.
           constructor; [|apply IHh; assumption]. destruct o as [q|q r|q s].
           ++ constructor.
           ++ apply adds_other_line. intro Y. apply hears_le in Y; [|exact W]. cbn in *. lia.
           ++ apply adds_other_piece. cbn in *. lia.
        -- clear. induction (h ++ [DebugContext p])%list; [reflexivity|]. cbn. exact IHl.
    + rewrite flat_map_app, IM. cbn. rewrite app_nil_r. reflexivity.
  - (* Line *)
    destruct (nth_error (contexts st) d) as [x|] eqn:N; [|discriminate]. injection S as <-. destruct (IH _ _ N) as (ND & BI).
    assert (O : origins (h ++ [Line d r])%list = origins h) by (rewrite origins_app; cbn; apply app_nil_r).
    assert (HE : forall c e, e <= length (origins h) -> (hears (h ++ [Line d r])%list c e <-> hears h c e)).
    { intros c e L. split; [apply hears_back; assumption|apply hears_app]. }
    assert (BACK : forall c y, nth_error (contexts (emit r (Log x) st)) c = Some y -> exists y0, nth_error (contexts st) c = Some y0 /\ y = if in_dec Nat.eq_dec c (bufs (Log x)) then append_to (render c r) y0 else y0).
    { intros c y NC. assert (L : c < length (contexts st)) by (rewrite <- (emit_length r (Log x)); apply nth_error_Some; congruence).
      destruct (nth_error (contexts st) c) as [y0|] eqn:E; [|apply nth_error_None in E; lia]. exists y0. split; [reflexivity|]. rewrite (emit_nth r (Log x) ND st c y0 E) in NC. congruence. }
    split.
    + rewrite emit_length, O. exact IL.
    + rewrite O. exact IO.
    + intros e y NE. destruct (BACK _ _ NE) as (y0 & E & ->). assert (L : Log (if in_dec Nat.eq_dec e (bufs (Log x)) then append_to (render e r) y0 else y0) = Log y0) by (destruct (in_dec Nat.eq_dec e (bufs (Log x))); reflexivity).
      rewrite L. destruct (IH _ _ E) as (A & B). split; [exact A|]. intro c. rewrite B, HE by (eapply KN; exact E). reflexivity.
    + intros c y NC. destruct (BACK _ _ NC) as (y0 & E & ->). destruct (IB _ _ E) as (A & B). destruct (in_dec Nat.eq_dec c (bufs (Log x))) as [I1|NI].
      * apply BI in I1. destruct I1 as (NZ & HC). cbn [append_to logBuffer]. destruct (logBuffer y0) as [b0|].
        -- split; [split; [discriminate|intro X; apply A in X; discriminate]|]. intros b X. injection X as <-. destruct (B b0 eq_refl) as (l & F & ->). exists (l ++ [render c r])%list. split; [|symmetry; apply text_snoc].
           apply Forall2_snoc; [apply Forall2_adds_app; assumption|]. constructor. apply hears_app, HC.
        -- exfalso. apply NZ, A. reflexivity.
      * split; [exact A|]. intros b X. destruct (B b X) as (l & F & ->). exists (l ++ [""])%list. split; [|rewrite text_snoc, app_nil_str; reflexivity].
        apply Forall2_snoc; [apply Forall2_adds_app; assumption|]. apply adds_other_line. intro Y. apply HE in Y; [|exact K']. apply NI, BI. split; [|exact Y]. intro Z. apply A in Z. congruence.
    + rewrite emit_main, flat_map_app, IM. cbn. rewrite app_nil_r. reflexivity.
  - (* Write *)
    destruct (nth_error (contexts st) d) as [x|] eqn:N; [|discriminate]. destruct (logBuffer x) as [bx|] eqn:LB; [|discriminate]. injection S as <-.
    assert (O : origins (h ++ [Write d s])%list = origins h) by (rewrite origins_app; cbn; apply app_nil_r).
    assert (HE : forall c e, e <= length (origins h) -> (hears (h ++ [Write d s])%list c e <-> hears h c e)).
    { intros c e L. split; [apply hears_back; assumption|apply hears_app]. }
    split; cbn [LgModel.write LgModel.contexts LgModel.main_log].
    + rewrite update_length, O. exact IL.
    + rewrite O. exact IO.
    + intros e y NE. rewrite update_nth in NE. assert (X : exists y0, nth_error (contexts st) e = Some y0 /\ Log y = Log y0).
      { destruct (Nat.eqb d e); [|eauto]. destruct (nth_error (contexts st) e) as [y0|]; [|discriminate]. injection NE as <-. exists y0. auto. }
      destruct X as (y0 & E & ->). destruct (IH _ _ E) as (A & B). split; [exact A|]. intro c. rewrite B, HE by (eapply KN; exact E). reflexivity.
    + intros c y NC. rewrite update_nth in NC. destruct (Nat.eqb_spec d c) as [->|NE].
      * rewrite N in NC. injection NC as <-. destruct (IB _ _ N) as (A & B). cbn. rewrite LB. split; [split; [discriminate|intro X; apply A in X; congruence]|].
        intros b X. injection X as <-. destruct (B bx LB) as (l & F & ->). exists (l ++ [s])%list. split; [|symmetry; apply text_snoc]. apply Forall2_snoc; [apply Forall2_adds_app; assumption|constructor].
      * destruct (IB _ _ NC) as (A & B). split; [exact A|]. intros b X. destruct (B b X) as (l & F & ->). exists (l ++ [""])%list. split; [|rewrite text_snoc, app_nil_str; reflexivity].
        apply Forall2_snoc; [apply Forall2_adds_app; assumption|constructor; congruence].
    + rewrite flat_map_app, IM. cbn. rewrite app_nil_r. reflexivity.
Qed.
Lemma run_app h k : forall st, run (h ++ k)%list st = match run h st with None => None | Some st' => run k st' end.
Proof. induction h as [|o h IH]; intro st; cbn; [reflexivity|]. destruct (step st o); [apply IH|reflexivity]. Qed.
Lemma run_inv h : forall st, run h (NewContext record) = Some st -> Inv h st /\ all_known h.
Proof.
  induction h as [|o h IH] using rev_ind; intros st R.
  - injection R as <-. split; [|constructor]. split; cbn.
    + reflexivity.
    + intros [|n] e X; discriminate.
    + intros [|[|d]] x X; cbn in X; try discriminate. injection X as <-. cbn. split; [constructor|]. intro c. split; [intros []|]. intros (A & B). inversion B; subst. contradiction.
    + intros [|[|c]] x X; cbn in X; try discriminate. injection X as <-. cbn. split; [tauto|]. discriminate.
    + reflexivity.
  - rewrite run_app in R. destruct (run h (NewContext record)) as [st0|]; [|discriminate]. destruct (IH st0 eq_refl) as (I & K). cbn in R. destruct (step st0 o) as [st1|] eqn:S; [|discriminate]. injection R as <-.
    eapply step_inv; eassumption.
Qed.
End Tree.

(* ---- sections ---- *)
Lemma in_las_newline x : ~ In "010"%char (list_ascii_of_string x) -> forall y a b, x ++ String "010" a = y ++ String "010" b -> ~ In "010"%char (list_ascii_of_string y) -> x = y /\ a = b.
Proof.
  induction x as [|c x IH]; intros N [|d y] a b E M; cbn in E.
  - injection E as ->. auto.
  - injection E as <- _. exfalso. apply M. left. reflexivity.
  - injection E as -> _. exfalso. apply N. left. reflexivity.
  - injection E as <- E. destruct (IH (fun H => N (or_intror H)) y a b E (fun H => M (or_intror H))) as (-> & ->). auto.
Qed.
(* Whole lines can be told apart. *)
Lemma lines_unique l : Forall is_line l -> forall m, Forall is_line m -> text l = text m -> l = m.
Proof.
  induction l as [|s l IH]; intros F [|t m] G E.
  - reflexivity.
  - exfalso. inversion G as [|t0 m0 (y & -> & _) _]; subst. cbn in E. destruct y; discriminate.
  - exfalso. inversion F as [|s0 l0 (x & -> & _) _]; subst. cbn in E. destruct x; discriminate.
  - inversion F as [|s0 l0 (x & -> & NX) F']; subst. inversion G as [|t0 m0 (y & -> & NY) G']; subst. cbn in E. rewrite !app_assoc_str in E. cbn in E.
    destruct (in_las_newline x NX _ _ _ E NY) as (-> & E'). f_equal. apply IH; assumption.
Qed.
Lemma markers_no_newline : ~ In "010"%char (list_ascii_of_string "================  ") /\ ~ In "010"%char (list_ascii_of_string "================ /") /\ ~ In "010"%char (list_ascii_of_string "  ================").
Proof. repeat match goal with |- _ /\ _ => split end; cbn; intuition discriminate. Qed.
Lemma opening_line n : no_newline n -> is_line (start_line n).
Proof.
  intro N. exists ("================  " ++ n ++ "  ================"). split; [unfold start_line; rewrite !app_assoc_str; reflexivity|].
  destruct markers_no_newline as (A & _ & B). unfold no_newline in N. rewrite !las_app, !in_app_iff. tauto.
Qed.
Lemma closing_line n : no_newline n -> is_line (end_line n).
Proof.
  intro N. exists ("================ /" ++ n ++ "  ================"). split; [unfold end_line; rewrite !app_assoc_str; reflexivity|].
  destruct markers_no_newline as (_ & A & B). unfold no_newline in N. rewrite !las_app, !in_app_iff. tauto.
Qed.
Lemma opening_inj n m : start_line n = start_line m -> n = m.
Proof. unfold start_line. intro E. apply str_app_inv_head, str_app_inv_tail in E. exact E. Qed.
Lemma marked n : exists s, start_line n = "================ " ++ s.
Proof. exists (" " ++ n ++ "  ================" ++ newline). reflexivity. Qed.
Lemma cut_unique {A} (c : A) l : ~ In c l -> forall m r s, ~ In c m -> (l ++ c :: r = m ++ c :: s)%list -> l = m /\ r = s.
Proof.
  induction l as [|x l IH]; intros N [|y m] r s M E; cbn in E.
  - injection E as ->. auto.
  - injection E as <- _. exfalso. apply M. left. reflexivity.
  - injection E as -> _. exfalso. apply N. left. reflexivity.
  - injection E as -> E. destruct (IH (fun H => N (or_intror H)) m r s (fun H => M (or_intror H)) E) as (-> & ->). auto.
Qed.
Inductive lines_item : item -> list string -> Prop :=
| li_line : forall s, is_line s -> (forall s', s <> "================ " ++ s') -> lines_item (ALine s) [s]
| li_section : forall n c l, no_newline n -> lines_of c l -> ~ In (end_line n) l -> lines_item (ASection n c) (start_line n :: l ++ [end_line n]).
Lemma honest_lines i : honest i -> exists l, lines_item i l /\ item_text i = text l /\ Forall is_line l.
Proof.
  destruct i as [s|n c]; intro H.
  - destruct H as (L & P). exists [s]. split; [constructor; assumption|]. split; [cbn; rewrite app_nil_str; reflexivity|]. constructor; [exact L|constructor].
  - destruct H as (N & l & (E & L) & C). exists (start_line n :: l ++ [end_line n])%list. split; [constructor; [exact N|split; assumption|exact C]|]. split.
    + cbn [item_text]. change (start_line n ++ c ++ end_line n = start_line n ++ text (l ++ [end_line n])). rewrite text_snoc, E. reflexivity.
    + constructor; [apply opening_line, N|]. apply Forall_app. split; [apply Forall_forall, L|]. constructor; [apply closing_line, N|constructor].
Qed.
Lemma unambiguous l : Forall honest l -> forall m, Forall honest m -> log_text l = log_text m -> l = m.
Proof.
  assert (X : forall l, Forall honest l -> exists ls, Forall2 lines_item l ls /\ log_text l = text (List.concat ls) /\ Forall is_line (List.concat ls)).
  { clear. intros l F. induction F as [|i l H F (ls & A & B & C)]; [exists []; repeat split; constructor|].
    destruct (honest_lines i H) as (k & P & Q & R). exists (k :: ls). split; [constructor; assumption|]. split.
    - unfold log_text in *. cbn [map List.concat]. rewrite text_app, <- B, <- Q. reflexivity.
    - cbn. apply Forall_app. auto. }
  intros F m G E. destruct (X l F) as (ls & A & B & C). destruct (X m G) as (ms & A' & B' & C'). rewrite B, B' in E. apply lines_unique in E; [|assumption|assumption].
  clear -A A' E. revert m ms A' E. induction A as [|i k l ls H A IH]; intros m ms A' E.
  - destruct A' as [|j k' m ms H' _]; [reflexivity|]. exfalso. destruct H'; discriminate.
  - destruct A' as [|j k' m ms H' A'].
    + exfalso. destruct H; discriminate.
    + destruct H as [s L P|n c lc N (EC & LC) NC], H' as [s' L' P'|n' c' lc' N' (EC' & LC') NC']; cbn [List.concat app] in E; pose proof (f_equal (hd "") E) as E1; apply (f_equal (@tl string)) in E; cbn [hd tl] in E1, E.
      * subst s'. f_equal. eapply IH; eassumption.
      * exfalso. destruct (marked n') as (t & T). eapply P. rewrite E1. exact T.
      * exfalso. destruct (marked n) as (t & T). eapply P'. rewrite <- E1. exact T.
      * apply opening_inj in E1. subst n'. rewrite <- !app_assoc in E. cbn [app] in E. apply cut_unique in E; [|assumption|assumption]. destruct E as (-> & E2).
        subst c'. rewrite EC. f_equal. eapply IH; eassumption.
Qed.

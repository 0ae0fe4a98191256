(* C48, C49: the loop of one subscriber and its transports. *)
From Coq Require Import String Ascii List Bool Lia.
From Verif Require Import TrModel TrSpec.
Import ListNotations.
Local Open Scope string_scope.

(* ---- C48 ---- *)
Lemma data_app a b : data (a ++ b) = (data a ++ data b)%list.
Proof. induction a as [|[m| |] a IH]; cbn; auto. rewrite IH. auto. Qed.

Section S.
Variable k : kind.
Variable notifier : bool.
Notation run := (run k notifier).
Notation step := (step k notifier).
Lemma run_snoc ls l : run (ls ++ [l]) = step (run ls) l.
Proof. unfold TrModel.run. rewrite fold_left_app. reflexivity. Qed.

Record Inv (s : state) : Prop := {
  i_data : (data (wire s) ++ send s)%list = queued s;
  i_ws : k = WebSocket -> panicked s = false /\ close_closed s = read_done s;
  i_sse : k = SSE -> panicked s = true -> send_closed s = true /\ peer_gone s = true /\ notifier = true;
  i_read : read_done s = true -> notifier = true \/ k = WebSocket -> peer_gone s = true;
  i_close : k = SSE -> close_closed s = true -> (run_done s = true /\ send_closed s = true) \/ (read_done s = true /\ peer_gone s = true /\ notifier = true)
}.
Lemma inv_run ls : Inv (run ls).
Proof.
  induction ls as [|l ls IH] using rev_ind.
  { constructor; cbn; auto; try discriminate. }
  rewrite run_snoc. destruct (run ls) as [sd sc pg cc rn rd pn w q]. unfold TrModel.step. cbn [panicked].
  destruct pn eqn:EP; [auto|]. destruct IH as [H1 H2 H3 H4 H5]. cbn in *.
  assert (HD : (data (w ++ [CloseFrame]) ++ sd)%list = q) by (rewrite data_app; cbn; rewrite app_nil_r; auto).
  assert (HP : (data (w ++ [PingFrame]) ++ sd)%list = q) by (rewrite data_app; cbn; rewrite app_nil_r; auto).
  destruct l as [m| | | | |ok|ok]; cbn.
  - destruct sc; cbn; constructor; cbn; auto. rewrite app_assoc, H1. auto.
  - constructor; cbn; intuition congruence.
  - constructor; cbn; intuition congruence.
  - destruct rd; [constructor; cbn; auto|]. destruct k eqn:EK, notifier eqn:EN, pg, cc; cbn; constructor; cbn; intuition congruence.
  - destruct rn; [constructor; cbn; auto|]. destruct cc; cbn; constructor; cbn; intuition congruence.
  - destruct rn; [constructor; cbn; auto|]. destruct sd as [|m sd].
    + destruct sc; [|constructor; cbn; auto]. destruct k eqn:EK, notifier eqn:EN, pg, cc; cbn; constructor; cbn; intuition congruence.
    + assert (E : (data (w ++ [Data m]) ++ sd)%list = q) by (rewrite data_app, <- app_assoc; auto).
      destruct ok; cbn; constructor; cbn; intuition congruence.
  - destruct rn; [constructor; cbn; auto|]. destruct ok; cbn; constructor; cbn; intuition congruence.
Qed.

Definition writes_ok (ls : list step_label) : Prop := ~ In (RunSend false) ls /\ ~ In (RunPing false) ls.
Lemma finished ls : writes_ok ls -> peer_gone (run ls) = false -> run_done (run ls) = true ->
  send (run ls) = [] /\ send_closed (run ls) = true /\ (k = WebSocket -> exists w, wire (run ls) = (w ++ [CloseFrame])%list).
Proof.
  induction ls as [|l ls IH] using rev_ind; [discriminate|]. intros [W1 W2]. rewrite in_app_iff in W1, W2.
  assert (WO : writes_ok ls) by (split; tauto). specialize (IH WO). assert (N1 : l <> RunSend false) by (intros ->; apply W1; right; left; auto).
  assert (N2 : l <> RunPing false) by (intros ->; apply W2; right; left; auto). clear W1 W2 WO.
  pose proof (inv_run ls) as I. rewrite run_snoc. destruct (run ls) as [sd sc pg cc rn rd pn w q]. unfold TrModel.step. cbn [panicked].
  destruct pn; [auto|]. destruct I as [H1 H2 H3 H4 H5]. cbn in *.
  destruct l as [m| | | | |ok|ok]; cbn.
  - destruct sc; cbn; auto. intros A B. destruct (IH A B) as (_ & X & _). discriminate.
  - intros A B. destruct (IH A B) as (X & Y & Z). auto.
  - discriminate.
  - destruct rd; [auto|]. destruct k eqn:EK; [destruct pg; [discriminate|auto]|]. destruct notifier; cbn; auto. destruct pg; [discriminate|auto].
  - destruct rn; cbn; [auto|]. destruct cc; cbn; [|discriminate]. intros -> _. exfalso. destruct k.
    + destruct (H2 eq_refl) as [_ <-]. specialize (H4 eq_refl (or_intror eq_refl)). discriminate.
    + destruct (H5 eq_refl eq_refl) as [[X _]|[_ [X _]]]; discriminate.
  - destruct rn; cbn; [auto|]. destruct sd as [|m sd].
    + destruct sc; cbn; [|discriminate]. destruct k; cbn; intros _ _; (split; [auto|split; [auto|]]); [|discriminate]. intros _. exists w. auto.
    + destruct ok; [discriminate|congruence].
  - destruct rn; cbn; [auto|]. destruct ok; [discriminate|congruence].
Qed.

(* Whatever happens, what was written is an initial part of what the broadcaster
   queued, in order and without repetition; the rest is still in the channel. *)
Theorem C48_delivery : forall ls, let s := run ls in (data (wire s) ++ send s)%list = queued s.
Proof. intros ls. apply (i_data _ (inv_run ls)). Qed.

(* If the peer stays and no write fails, Run returns only after the broadcaster
   closed the channel and everything queued was written; a websocket is then
   told so. *)
Theorem C48_complete : forall ls, writes_ok ls -> let s := run ls in
  peer_gone s = false -> run_done s = true ->
  data (wire s) = queued s /\ send_closed s = true /\ (k = WebSocket -> exists w, wire s = (w ++ [CloseFrame])%list).
Proof.
  intros ls W s A B. destruct (finished ls W A B) as (X & Y & Z). split; [|auto].
  pose proof (C48_delivery ls) as D. cbv zeta in D. unfold s in *. rewrite X, app_nil_r in D. auto.
Qed.

(* Nothing is written once Run has returned. *)
Theorem C48_silent : forall ls l, let s := run ls in run_done s = true ->
  wire (step s l) = wire s /\ run_done (step s l) = true.
Proof.
  intros ls l s. destruct s as [sd sc pg cc rn rd pn w q]. cbn. intros ->. unfold TrModel.step. cbn [panicked]. destruct pn; [auto|].
  destruct l; cbn; auto.
  - destruct sc; auto.
  - destruct rd; [auto|]. destruct k; [destruct pg; auto|]. destruct notifier; cbn; auto. destruct pg; auto.
Qed.

(* A write that fails ends the loop: nothing is written after it. *)
Theorem C48_failed_write : forall ls, let s := run ls in panicked s = false -> run_done s = false ->
  (send s <> [] -> run_done (step s (RunSend false)) = true) /\ run_done (step s (RunPing false)) = true /\
  forall ls', (send s <> [] -> wire (run (ls ++ RunSend false :: ls')) = wire (step s (RunSend false))) /\
              wire (run (ls ++ RunPing false :: ls')) = wire (step s (RunPing false)).
Proof.
  intros ls s HP HR.
  assert (A : send s <> [] -> run_done (step s (RunSend false)) = true).
  { destruct s as [[|m sd] sc pg cc rn rd pn w q]; cbn in *; [congruence|]. intros _. subst. reflexivity. }
  assert (B : run_done (step s (RunPing false)) = true).
  { destruct s as [sd sc pg cc rn rd pn w q]; cbn in *. subst. reflexivity. }
  assert (C : forall ls0 ls', run_done (run ls0) = true -> wire (run (ls0 ++ ls')) = wire (run ls0) /\ run_done (run (ls0 ++ ls')) = true).
  { intros ls0 ls' H. induction ls' as [|l ls' IH] using rev_ind; [rewrite app_nil_r; auto|].
    rewrite app_assoc, run_snoc. destruct IH as [I1 I2]. destruct (C48_silent (ls0 ++ ls') l I2) as [X Y]. rewrite X, Y. auto. }
  split; [auto|]. split; [auto|]. intros ls'. split; [intros N|].
  - replace (ls ++ RunSend false :: ls')%list with ((ls ++ [RunSend false]) ++ ls')%list by (rewrite <- app_assoc; auto).
    destruct (C (ls ++ [RunSend false])%list ls') as [X _]; [rewrite run_snoc; auto|]. rewrite X, run_snoc. reflexivity.
  - replace (ls ++ RunPing false :: ls')%list with ((ls ++ [RunPing false]) ++ ls')%list by (rewrite <- app_assoc; auto).
    destruct (C (ls ++ [RunPing false])%list ls') as [X _]; [rewrite run_snoc; auto|]. rewrite X, run_snoc. reflexivity.
Qed.

(* The channel shared by the two goroutines is closed twice in no schedule with a
   websocket, and with SSE in none where the peer stays or the broadcaster keeps
   the subscriber. *)
Theorem C48_no_double_close : forall ls, let s := run ls in
  k = WebSocket \/ peer_gone s = false \/ send_closed s = false -> panicked s = false.
Proof.
  intros ls s H. destruct (panicked s) eqn:EP; [|auto]. pose proof (inv_run ls) as I. destruct k eqn:EK.
  - destruct (i_ws _ I EK) as [X _]. unfold s in EP. rewrite X in EP. discriminate.
  - destruct (i_sse _ I EK EP) as (A & B & _). fold s in A, B. destruct H as [H|[H|H]]; congruence.
Qed.
End S.
Print Assumptions C48_delivery.
Print Assumptions C48_complete.
Print Assumptions C48_silent.
Print Assumptions C48_failed_write.
Print Assumptions C48_no_double_close.

(* False of the code: that it never is.  When an SSE client disconnects while the
   broadcaster drops it, both goroutines close the channel, and the process
   panics. *)
Theorem C48_no_double_close_refuted : exists ls, writes_ok ls /\ panicked (run SSE true ls) = true.
Proof. exists [CloseSend; PeerGone; RunSend true; ReadLoopStep]. split; [split; cbn; intuition discriminate|reflexivity]. Qed.
Print Assumptions C48_no_double_close_refuted.
Example C48_example : let ls := [Enqueue "a"; RunSend true; RunPing true; Enqueue "b"; CloseSend; RunSend true; RunSend true] in
  writes_ok ls /\ peer_gone (run WebSocket true ls) = false /\ run_done (run WebSocket true ls) = true /\
  wire (run WebSocket true ls) = [Data "a"; PingFrame; Data "b"; CloseFrame].
Proof. split; [split; cbn; intuition discriminate|]. repeat split. Qed.

(* ---- C49 ---- *)
Lemma append_assoc a b c : (a ++ b) ++ c = a ++ (b ++ c).
Proof. induction a as [|x a IH]; cbn; [auto|]. rewrite IH. auto. Qed.
Lemma append_nil a : a ++ "" = a.
Proof. induction a as [|x a IH]; cbn; [auto|]. rewrite IH. auto. Qed.
Lemma substring_all s n : (String.length s <= n)%nat -> substring 0 n s = s.
Proof. revert n. induction s as [|x s IH]; intros [|n] H; cbn in *; auto; try lia. rewrite IH by lia. auto. Qed.
Lemma substring_S n m x s : substring (S n) m (String x s) = substring n m s.
Proof. reflexivity. Qed.
Lemma length_app a b : String.length (a ++ b) = (String.length a + String.length b)%nat.
Proof. induction a as [|x a IH]; cbn; [auto|]. rewrite IH. auto. Qed.
Lemma substring_prefix a b : substring 0 (String.length a) (a ++ b) = a.
Proof. induction a as [|x a IH]; cbn; [destruct b; auto|]. rewrite IH. auto. Qed.

Lemma lines_one a : forall cur rest, one_line a -> lines cur (a ++ lf ++ rest) = (cur ++ a) :: lines "" rest.
Proof.
  induction a as [|x a IH]; intros cur rest H.
  - cbn. rewrite append_nil. auto.
  - cbn [append lines]. destruct (H x) as [N1 N2]; [left; auto|].
    destruct (Ascii.eqb_spec x LF); [contradiction|]. destruct (Ascii.eqb_spec x CR); [contradiction|].
    rewrite IH. { rewrite append_assoc. auto. } intros c Hc. apply H. right. auto.
Qed.
Lemma one_line_app a b : one_line a -> one_line b -> one_line (a ++ b).
Proof.
  intros HA HB c Hc. assert (X : list_ascii_of_string (a ++ b) = (list_ascii_of_string a ++ list_ascii_of_string b)%list).
  { clear. induction a as [|x a IH]; cbn; [auto|]. rewrite IH. auto. }
  rewrite X in Hc. apply in_app_iff in Hc. destruct Hc; auto.
Qed.
Lemma one_line_data : one_line "data: ".
Proof. intros c Hc. cbn in Hc. intuition (subst; discriminate). Qed.
Lemma field_data m : field ("data: " ++ m) = ("data", m).
Proof.
  unfold field. change (index 0 ":" ("data: " ++ m)) with (Some 4%nat). cbn [Nat.add].
  change (substring 0 4 ("data: " ++ m)) with "data".
  assert (E : substring 5 (String.length ("data: " ++ m)) ("data: " ++ m) = " " ++ m).
  { change (substring 5 (String.length ("data: " ++ m)) ("data: " ++ m)) with (substring 0 (String.length ("data: " ++ m)) (" " ++ m)).
    apply substring_all. rewrite !length_app. cbn. lia. }
  rewrite E. replace (prefix " " (" " ++ m)) with true by (destruct m; reflexivity). f_equal.
  change (substring 1 (String.length (" " ++ m)) (" " ++ m)) with (substring 0 (String.length (" " ++ m)) m).
  apply substring_all. cbn. lia.
Qed.
Lemma drop_last_lf m : drop_last (m ++ lf) = m.
Proof. unfold drop_last. rewrite length_app. cbn [String.length lf]. replace (String.length m + 1 - 1)%nat with (String.length m) by lia. apply substring_prefix. Qed.
Lemma nonempty_lf m : ((m ++ lf) =? "")%string = false.
Proof. destruct m; reflexivity. Qed.

Lemma stream_cons f fs : sse_stream (f :: fs) = sse_frame f ++ sse_stream fs.
Proof. unfold sse_stream. cbn [map String.concat]. destruct (map sse_frame fs); [cbn; rewrite append_nil; auto|auto]. Qed.

(* What a browser reads from an SSE stream is exactly the messages sent, as long
   as each fits in one line, whatever pings come in between. *)
Theorem C49_sse_round_trip : forall fs, (forall m, In (Data m) fs -> one_line m) ->
  browser_events (sse_stream fs) = data fs.
Proof.
  intros fs. unfold browser_events. induction fs as [|f fs IH]; intros H; [reflexivity|].
  assert (IH' := IH (fun m Hm => H m (or_intror Hm))). rewrite stream_cons. destruct f as [m| |]; cbn [sse_frame data].
  - rewrite !append_assoc. replace ("data: " ++ (m ++ (lf ++ lf ++ sse_stream fs))) with (("data: " ++ m) ++ (lf ++ (lf ++ sse_stream fs))) by (rewrite append_assoc; auto).
    rewrite lines_one by (apply one_line_app; [apply one_line_data|apply H; left; auto]).
    change (lines "" (lf ++ sse_stream fs)) with ("" :: lines "" (sse_stream fs)).
    change ("" ++ ("data: " ++ m)) with ("data: " ++ m). cbn [dispatch].
    change (("data: " ++ m) =? "")%string with false. change (prefix ":" ("data: " ++ m)) with false.
    rewrite field_data. cbn [String.eqb Ascii.eqb Bool.eqb]. change ("" ++ (m ++ lf)) with (m ++ lf).
    rewrite nonempty_lf, drop_last_lf, IH'. auto.
  - rewrite append_assoc. rewrite lines_one. 2: { intros c [<-|[]]. split; discriminate. } exact IH'.
  - exact IH'.
Qed.
Print Assumptions C49_sse_round_trip.

(* False of the code for messages with line breaks: they are cut, and a message
   can forge other events. *)
Theorem C49_line_breaks_refuted : exists m, browser_events (sse_stream [Data m]) = ["a"; "forged"].
Proof. exists ("a" ++ lf ++ lf ++ "data: forged"). reflexivity. Qed.
Print Assumptions C49_line_breaks_refuted.
Example C49_example : (forall m, In (Data m) [Data "{}"; PingFrame; Data ""; Data ": x"] -> one_line m) /\
  browser_events (sse_stream [Data "{}"; PingFrame; Data ""; Data ": x"]) = ["{}"; ""; ": x"].
Proof. split; [|reflexivity]. intros m H c Hc. cbn in H. decompose [or] H; clear H; try discriminate; try contradiction; match goal with E : Data _ = Data m |- _ => injection E as <- end; cbn in Hc; decompose [or] Hc; subst; try contradiction; split; discriminate. Qed.

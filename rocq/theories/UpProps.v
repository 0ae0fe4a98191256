(* C42, C43, C50: a runner's upload and backoff. *)
From Coq Require Import List Bool ZArith QArith Qround Lia.
From Verif Require Import UpModel.
Import ListNotations.
Local Open Scope list_scope.
Local Open Scope nat_scope.

(* All the bytes that reached the reader, in order. *)
Definition got {byte} (es : list (seen byte)) : list byte := flat_map (fun e => match e with Gets b => b | _ => [] end) es.
Definition returned {byte} (es : list (seen byte)) : nat := length (filter (fun e => match e with Gets _ => true | _ => false end) es).
Definition writes_done {byte} (es : list (seen byte)) : nat := length (filter (fun e => match e with Written => true | _ => false end) es).
Definition plain_calls {byte} (es : list (seen byte)) : Prop := forall c, In (Calls c) es -> exists n, n <> 0 /\ c = Reading n.

Lemma got_app {byte} (a b : list (seen byte)) : got (a ++ b) = got a ++ got b.
Proof. apply flat_map_app. Qed.
Definition opt {byte} (o : option (list byte)) : list byte := match o with Some b => b | None => [] end.
Definition pending {byte} (s : state byte) : list byte := opt (blocked s) ++ concat (todo s).
Lemma rest_opt {byte} (c : list byte) n : n <= length c -> firstn n c ++ opt (rest c n) = c.
Proof.
  intros H. unfold rest. destruct (Nat.eqb_spec n (length c)) as [->|]; cbn [opt]; [rewrite firstn_all, app_nil_r; auto|apply firstn_skipn].
Qed.
Lemma firstn_len {byte} n (c : list byte) : firstn (length (firstn n c)) c = firstn n c.
Proof. rewrite firstn_length. destruct (Nat.min_spec n (length c)) as [[L ->]|[L ->]]; [auto|]. rewrite firstn_all. symmetry. apply firstn_all2. auto. Qed.

(* closed means the writer is done. *)
Definition wf {byte} (s : state byte) : Prop := closed s = true -> todo s = [] /\ blocked s = None.
Lemma receive_some {byte} (s s' : state byte) e b : receive s e (Some b) s' -> e = [Written] /\ blocked s = Some b /\ s' = {| todo := todo s; blocked := None; closed := closed s; currentChunk := currentChunk s; doing := doing s |}.
Proof. intros H. inversion H; subst. auto. Qed.
Lemma receive_none {byte} (s s' : state byte) e : receive s e None s' -> e = [] /\ closed s = true /\ blocked s = None /\ s' = s.
Proof. intros H. inversion H; subst. auto. Qed.
Ltac rec :=
  repeat match goal with
  | H : receive _ _ (Some _) _ |- _ => apply receive_some in H; destruct H as (-> & ? & ->)
  | H : receive _ _ None _ |- _ => apply receive_none in H; destruct H as (-> & ? & ? & ->)
  end.
Lemma step_wf {byte} (s s' : state byte) e : step s e s' -> wf s -> wf s'.
Proof.
  intros H W. unfold wf in *. destruct H; rec; cbn [set_current todo blocked closed] in *; intros C; try (apply W in C; destruct C; congruence); auto.
Qed.

Record inv {byte} (chunks : list (list byte)) (s : state byte) (got : list byte) (dropping : bool) (eof : bool) : Prop := {
  i_wf : wf s;
  i_all : if dropping then (exists r, concat chunks = got ++ opt (currentChunk s) ++ r) /\ (doing s = Closing \/ closed s = true) else concat chunks = got ++ opt (currentChunk s) ++ pending s;
  i_drop : doing s = Closing -> dropping = true;
  i_eof : eof = true -> closed s = true /\ (dropping = false -> concat chunks = got)
}.
Definition is_eof {byte} (e : seen byte) : bool := match e with ReadEOF | CopyEnd => true | _ => false end.
Definition is_close {byte} (e : seen byte) : bool := match e with Calls Closing => true | _ => false end.
Lemma step_inv {byte} chunks (s s' : state byte) e g d f : step s e s' -> ~ In CopyFailed e -> inv chunks s g d f ->
  inv chunks s' (g ++ got e) (d || existsb is_close e) (f || existsb is_eof e).
Proof.
  intros H NF [W A D F]. assert (W' := step_wf _ _ _ H W).
  assert (FIN : forall (st : state byte), closed st = true -> wf st -> pending st = []).
  { intros st C X. destruct (X C) as [E1 E2]. unfold pending. rewrite E1, E2. auto. }
  destruct H as [s b t ET EB|s ET EB EC|s c ED NC|s n e b s' ED EC R|s n e s' ED EC R|s n c ED EC|s e b s' ED EC R|s e s' ED EC R|s c k ED EC L|s c k ED EC L|s e b s' ED R|s e s' ED R];
    rec; cbn [existsb is_close is_eof got flat_map app] in *; rewrite ?app_nil_r, ?orb_false_r.
  - (* write *) constructor; cbn [currentChunk doing closed set_current] in *; auto.
    destruct d; [exact A|]. rewrite A. unfold pending. rewrite ET, EB. reflexivity.
  - (* close *) constructor; cbn [currentChunk doing closed set_current] in *; auto.
    + destruct d; [split; [apply A|auto]|]. rewrite A. unfold pending. cbn. rewrite ET, EB. reflexivity.
    + intros X. destruct (F X) as [Y _]. congruence.
  - (* calls *) constructor; cbn [currentChunk doing closed set_current] in *; auto.
    + destruct c; [congruence| | |]; rewrite ?orb_false_r; cbn [is_close]; rewrite ?orb_false_r, ?orb_true_r.
      * destruct d; [|exact A]. split; [apply A|]. destruct (proj2 A); [congruence|auto].
      * destruct d; [|exact A]. split; [apply A|]. destruct (proj2 A); [congruence|auto].
      * split; [|auto]. destruct d; [apply A|]. eexists. exact A.
    + intros ->. cbn. apply orb_true_r.
    + intros X. destruct (F X) as [Y Z]. split; [auto|]. intros Q. apply Z. destruct d; [discriminate|auto].
  - (* read_receive *) constructor; cbn [currentChunk doing closed set_current opt] in *; auto; [|discriminate].
    + rewrite EC in A. cbn [opt app] in A. unfold pending in *. cbn [todo blocked opt app] in *. rewrite H in A. destruct d; [|exact A].
      destruct A as [_ [A|A]]; [congruence|]. apply W in A. destruct A. congruence.
  - (* read_eof *) constructor; cbn [currentChunk doing closed set_current opt] in *; auto; [|discriminate|].
    + rewrite EC in A. destruct d; [split; [apply A|auto]|exact A].
    + intros _. split; [auto|]. intros ->. rewrite EC in A. rewrite (FIN s) in A by auto. cbn in A. rewrite app_nil_r in A. auto.
  - (* read_copy *) constructor; cbn [currentChunk doing closed set_current opt] in *; auto; [|discriminate|].
    + rewrite EC in A. cbn [opt] in A. rewrite <- (rest_opt c (length (firstn n c))) in A by (rewrite firstn_length; lia). rewrite firstn_len, <- app_assoc in A.
      destruct d; [destruct A as [[r A] [B|B]]; [congruence|split; [exists r|auto]]|]; rewrite <- !app_assoc in *; auto.
    + intros X. destruct (F X) as [Y Z]. split; [auto|]. intros ->. rewrite EC, (FIN s) in A by auto. specialize (Z eq_refl). rewrite app_nil_r, Z in A. cbn [opt] in A.
      rewrite <- (app_nil_r g) in A at 1. apply app_inv_head in A. rewrite <- A, firstn_nil, app_nil_r. auto.
  - (* copy_receive *) constructor; cbn [currentChunk doing closed set_current opt] in *; auto; [|discriminate].
    + rewrite EC in A. cbn [opt app] in A. unfold pending in *. cbn [todo blocked opt app] in *. rewrite H in A. destruct d; [|exact A].
      destruct A as [_ [A|A]]; [congruence|]. apply W in A. destruct A. congruence.
  - (* copy_end *) constructor; cbn [currentChunk doing closed set_current opt] in *; auto; [|discriminate|].
    + rewrite EC in A. destruct d; [split; [apply A|auto]|exact A].
    + intros _. split; [auto|]. intros ->. rewrite EC in A. rewrite (FIN s) in A by auto. cbn in A. rewrite app_nil_r in A. auto.
  - (* copy_write *) constructor; cbn [currentChunk doing closed set_current opt] in *; auto; [|discriminate|].
    + rewrite EC in A. cbn [opt] in A. rewrite <- (rest_opt c k) in A by auto. rewrite <- app_assoc in A.
      destruct d; [destruct A as [[r A] [B|B]]; [congruence|split; [exists r|auto]]|]; rewrite <- !app_assoc in *; auto.
    + intros X. destruct (F X) as [Y Z]. split; [auto|]. intros ->. rewrite EC, (FIN s) in A by auto. specialize (Z eq_refl). rewrite app_nil_r, Z in A. cbn [opt] in A.
      rewrite <- (app_nil_r g) in A at 1. apply app_inv_head in A. rewrite <- A, firstn_nil, app_nil_r. auto.
  - elim NF. cbn. auto.
  - (* drain *) assert (d = true) by auto. subst d. constructor; cbn [currentChunk doing closed set_current opt] in *; auto.
  - (* close_end *) assert (d = true) by auto. subst d. constructor; cbn [currentChunk doing closed set_current opt] in *; auto. split; [apply A|auto].
Qed.
Lemma steps_inv {byte} chunks (s s' : state byte) es : steps s es s' -> ~ In CopyFailed es -> forall g d f, inv chunks s g d f -> inv chunks s' (g ++ got es) (d || existsb is_close es) (f || existsb is_eof es).
Proof.
  induction 1 as [s|s e s1 es s2 H HS IH]; intros NF g d f I; [rewrite app_nil_r; cbn; rewrite !orb_false_r; auto|].
  rewrite in_app_iff in NF. rewrite got_app, !existsb_app, app_assoc, !orb_assoc. apply IH; [tauto|]. eapply step_inv; eauto.
Qed.
Lemma inv0 {byte} (chunks : list (list byte)) : inv chunks (start chunks) [] false false.
Proof. constructor; cbn; try discriminate; auto. Qed.
Lemma existsb_close {byte} (es : list (seen byte)) : ~ In (Calls Closing) es -> existsb is_close es = false.
Proof.
  intros H. destruct (existsb is_close es) eqn:E; [|auto]. apply existsb_exists in E. destruct E as (x & X & Y). destruct x as [c| | | | | | | |]; try discriminate. destruct c; try discriminate. contradiction.
Qed.
Lemma closed_closes {byte} (s s' : state byte) es : steps s es s' -> closed s = false -> closed s' = true -> In Closes es.
Proof.
  induction 1 as [s|s e s1 es s2 H HS IH]; intros A B; [congruence|]. apply in_app_iff. destruct (closed s1) eqn:E; [|right; auto]. left.
  destruct H; rec; cbn in E; try congruence. left. auto.
Qed.

(* ---- C42 ---- *)
(* The reader gets the bytes that are written, in order, whatever the chunks, the
   sizes of its buffers and the interleaving; and when it is told that this was all
   (and has not closed the buffer itself), it was, and the writer had closed it. *)
Theorem C42_stream : forall (byte : Type) (chunks : list (list byte)) es s,
  steps (start chunks) es s -> ~ In CopyFailed es ->
  (exists r, concat chunks = got es ++ r) /\
  (In ReadEOF es \/ In CopyEnd es -> In Closes es /\ (~ In (Calls Closing) es -> got es = concat chunks)).
Proof.
  intros byte chunks es s H NF. destruct (steps_inv chunks _ _ _ H NF _ _ _ (inv0 chunks)) as [W A D F]. cbn [app orb] in *. split.
  - destruct (existsb is_close es); [destruct A as [[r A] _]; eauto|eauto].
  - intros X. assert (E : existsb is_eof es = true) by (apply existsb_exists; destruct X as [X|X]; eexists; (split; [exact X|auto])). destruct (F E) as [C G].
    split; [eapply closed_closes; eauto|]. intros NC. symmetry. apply G. apply existsb_close. auto.
Qed.
Print Assumptions C42_stream.

(* No call hangs: whoever is in a call, somebody can go on. *)
Theorem C42_never_stuck : forall (byte : Type) (chunks : list (list byte)) es s,
  steps (start chunks) es s -> doing s <> Idle -> exists e s', step s e s'.
Proof.
  intros byte chunks es s H ND. assert (W : wf s). { clear ND. assert (W0 : wf (start chunks)) by (unfold wf; discriminate). induction H; eauto using step_wf. }
  destruct (blocked s) as [b|] eqn:EB.
  - assert (R := receive_chunk byte s b EB). destruct (doing s) as [|n| |] eqn:ED; [congruence| | |].
    + destruct (currentChunk s) as [c|] eqn:EC; [eexists _, _; eapply read_copy; eauto|eexists _, _; eapply read_receive; eauto].
    + destruct (currentChunk s) as [c|] eqn:EC; [eexists _, _; eapply (copy_write _ _ _ 0); eauto; lia|eexists _, _; eapply copy_receive; eauto].
    + eexists _, _. eapply close_drain; eauto.
  - destruct (todo s) as [|b t] eqn:ET; [|eexists _, _; eapply write; eauto]. destruct (closed s) eqn:EC; [|eexists _, _; eapply closeChannel; eauto].
    assert (R := receive_closed byte s EC EB). destruct (doing s) as [|n| |] eqn:ED; [congruence| | |].
    + destruct (currentChunk s) as [c|] eqn:EK; [eexists _, _; eapply read_copy; eauto|eexists _, _; eapply read_eof; eauto].
    + destruct (currentChunk s) as [c|] eqn:EK; [eexists _, _; eapply (copy_write _ _ _ 0); eauto; lia|eexists _, _; eapply copy_end; eauto].
    + eexists _, _. eapply close_end; eauto.
Qed.
Print Assumptions C42_never_stuck.

(* Reads end: with buffers that are not empty there are no more successful reads
   than bytes and chunks. *)
Definition work {byte} (s : state byte) : nat :=
  length (concat (todo s)) + length (todo s) + match blocked s with Some b => length b + 1 | None => 0 end + match currentChunk s with Some c => length c + 1 | None => 0 end.
Theorem C42_reads_end : forall (byte : Type) (chunks : list (list byte)) es s,
  steps (start chunks) es s -> plain_calls es -> returned es <= length (concat chunks) + length chunks.
Proof.
  intros byte chunks es s H P.
  assert (X : forall (s s' : state byte) es, steps s es s' -> plain_calls es -> (doing s = Idle \/ exists n, n <> 0 /\ doing s = Reading n) -> returned es + work s' <= work s).
  { clear. intros s s' es. induction 1 as [s|s e s1 es s2 H HS IH]; intros P I; [cbn; lia|].
    assert (P1 : plain_calls es) by (intros c X; apply P, in_app_iff; auto). assert (P0 : plain_calls e) by (intros c X; apply P, in_app_iff; auto).
    assert (Y : returned e + work s1 <= work s /\ (doing s1 = Idle \/ exists n, n <> 0 /\ doing s1 = Reading n)).
    { unfold work. destruct H as [s b t ET EB|s ET EB EC|s c ED NC|s n e b s' ED EC R|s n e s' ED EC R|s n c ED EC|s e b s' ED EC R|s e s' ED EC R|s c k ED EC L|s c k ED EC L|s e b s' ED R|s e s' ED R];
        rec; cbn [set_current todo blocked currentChunk doing returned filter length app concat] in *;
        try (exfalso; destruct I as [I|(n0 & _ & I)]; congruence).
      - rewrite ET, EB. cbn [concat length]. rewrite app_length. split; [unfold returned; cbn; lia|auto].
      - rewrite ET, EB. split; [unfold returned; cbn; lia|auto].
      - split; [unfold returned; cbn; lia|]. right. apply (P0 c). left. auto.
      - rewrite EC, H. split; [unfold returned; cbn; lia|]. rewrite <- ED. auto.
      - rewrite EC. split; [unfold returned; cbn; lia|auto].
      - destruct I as [I|(n0 & N0 & I)]; [congruence|]. rewrite ED in I. injection I as <-. rewrite EC. unfold returned. cbn [filter length]. split; [|auto]. unfold rest. rewrite firstn_length.
        destruct (Nat.eqb_spec (Nat.min n (length c)) (length c)) as [_|NE]; [lia|]. rewrite skipn_length. lia. }
    destruct Y as [Y1 Y2]. specialize (IH P1 Y2). unfold returned in *. rewrite filter_app, app_length. lia. }
  specialize (X _ _ _ H P (or_introl eq_refl)). unfold work at 2 in X. cbn in X. lia.
Qed.
Print Assumptions C42_reads_end.

(* Closing the buffer lets the writer finish: when Close returns, every Write has
   returned and the writer has closed the channel.  Until then there are only
   finitely many steps, whoever takes them. *)
Theorem C42_close : forall (byte : Type) (chunks : list (list byte)) es s,
  steps (start chunks) es s ->
  (In CloseEnd es -> writes_done es = length chunks /\ In Closes es) /\
  (forall es' s', steps s es' s' -> doing s = Closing -> ~ In CloseEnd es' -> doing s' = Closing /\ length es' <= 2 * length chunks + 1).
Proof.
  intros byte chunks es s H.
  assert (X : forall (s s' : state byte) es, steps s es s' -> writes_done es + length (todo s') + match blocked s' with Some _ => 1 | None => 0 end = length (todo s) + match blocked s with Some _ => 1 | None => 0 end).
  { clear. intros s s' es. induction 1 as [s|s e s1 es s2 H HS IH]; [cbn; lia|]. unfold writes_done in *. rewrite filter_app, app_length.
    enough (length (filter (fun e => match e with Written => true | _ => false end) e) + length (todo s1) + match blocked s1 with Some _ => 1 | None => 0 end = length (todo s) + match blocked s with Some _ => 1 | None => 0 end) by lia.
    destruct H; rec; cbn [set_current todo blocked filter length app]; try lia; repeat match goal with E : blocked _ = _ |- _ => rewrite E | E : todo _ = _ |- _ => rewrite E end; cbn; lia. }
  split.
  - intros E. assert (Y : closed s = true).
    { assert (Z : forall (s s' : state byte) es, steps s es s' -> closed s = true \/ In CloseEnd es -> closed s' = true).
      { clear. intros s s' es. induction 1 as [s|s e s1 es s2 H HS IH]; intros [C|C]; [auto|elim C| | ].
        - apply IH. left. destruct H; rec; cbn; auto.
        - apply in_app_iff in C. destruct C as [C|C]; [|auto]. apply IH. left. destruct H; rec; cbn in C; repeat (destruct C as [C|C]; [try discriminate|]); try (elim C; fail); cbn; auto. }
      apply (Z _ _ _ H). auto. }
    assert (W : wf s). { assert (W0 : wf (start chunks)) by (unfold wf; discriminate). clear - H W0. induction H; eauto using step_wf. }
    destruct (W Y) as [T B]. specialize (X _ _ _ H). rewrite T, B in X. cbn in X. split; [lia|]. eapply closed_closes; eauto.
  - intros es' s' H' C NE. assert (X1 := X _ _ _ H). cbn in X1.
    pose (todo_work := fun s : state byte => 2 * length (todo s) + match blocked s with Some _ => 1 | None => 0 end + if closed s then 0 else 1).
    assert (Y : doing s' = Closing /\ length es' + todo_work s' <= todo_work s).
    { clear - H' C NE. revert C NE. induction H' as [s|s e s1 es s2 H HS IH]; intros C NE; [split; [auto|cbn [length]; lia]|]. rewrite in_app_iff in NE.
      assert (Z : doing s1 = Closing /\ length e + todo_work s1 <= todo_work s).
      { unfold todo_work. destruct H; rec; cbn [set_current todo blocked closed doing length app] in *; try congruence; [| | |elim NE; left; left; reflexivity];
          (split; [assumption|]); repeat match goal with E : blocked _ = _ |- _ => rewrite E | E : todo _ = _ |- _ => rewrite E | E : closed _ = _ |- _ => rewrite E end; cbn; try destruct (closed s); lia. }
      destruct Z as [Z1 Z2]. destruct IH as [I1 I2]; [auto|tauto|]. split; [auto|]. rewrite app_length. lia. }
    destruct Y as [Y1 Y2]. split; [auto|]. unfold todo_work in *. destruct (blocked s), (closed s); lia.
Qed.
Print Assumptions C42_close.

(* After a failed WriteTo, what its writer did take is delivered again. *)
Theorem C42_retry_refuted : exists (chunks : list (list nat)) es s, steps (start chunks) es s /\ concat chunks = [1; 2] /\ got es = [1; 1; 2].
Proof.
  exists [[1; 2]], ([Writes [1; 2]] ++ [Calls Copying] ++ [Written] ++ [Gets (firstn 1 [1; 2]); CopyFailed] ++ [Calls (Reading 5)] ++ [Gets (firstn 5 [1; 2])] ++ []). eexists. split; [|auto].
  eapply steps_cons; [eapply write; reflexivity|]. eapply steps_cons; [eapply calls; [reflexivity|discriminate]|]. eapply steps_cons; [eapply copy_receive; [reflexivity|reflexivity|apply receive_chunk; reflexivity]|].
  eapply steps_cons; [eapply copy_fails; [reflexivity|reflexivity|cbn; lia]|]. eapply steps_cons; [eapply calls; [reflexivity|discriminate]|]. eapply steps_cons; [eapply read_copy; reflexivity|]. apply steps_nil.
Qed.
Print Assumptions C42_retry_refuted.

(* A case: two chunks, one of them empty, read with a small buffer. *)
Example ex_upload : exists (es : list (seen nat)) s, steps (start [[1; 2; 3]; []]) es s /\ In ReadEOF es /\ ~ In CopyFailed es /\ plain_calls es /\ got es = [1; 2; 3] /\ returned es = 3.
Proof.
  eexists ([Writes [1; 2; 3]] ++ [Calls (Reading 2)] ++ [Written] ++ [Gets (firstn 2 [1; 2; 3])] ++ [Writes []] ++ [Calls (Reading 2)] ++ [Gets (firstn 2 [3])] ++ [Calls (Reading 2)] ++ [Written] ++ [Gets (firstn 2 [])] ++ [Closes] ++ [Calls (Reading 2)] ++ ([] ++ [ReadEOF]) ++ []), _.
  split; [|split; [cbn; tauto|split; [cbn; intuition discriminate|split; [|split; reflexivity]]]].
  2: { intros c X. cbn in X. exists 2. split; [discriminate|]. repeat (destruct X as [X|X]; [try discriminate; try (injection X as <-; reflexivity)|]). elim X. }
  eapply steps_cons; [eapply write; reflexivity|]. eapply steps_cons; [eapply calls; [reflexivity|discriminate]|].
  eapply steps_cons; [eapply read_receive; [reflexivity|reflexivity|apply receive_chunk; reflexivity]|]. eapply steps_cons; [eapply read_copy; reflexivity|].
  eapply steps_cons; [eapply write; reflexivity|]. eapply steps_cons; [eapply calls; [reflexivity|discriminate]|]. eapply steps_cons; [eapply read_copy; reflexivity|].
  eapply steps_cons; [eapply calls; [reflexivity|discriminate]|]. eapply steps_cons; [eapply read_receive; [reflexivity|reflexivity|apply receive_chunk; reflexivity]|]. eapply steps_cons; [eapply read_copy; reflexivity|].
  eapply steps_cons; [eapply closeChannel; reflexivity|]. eapply steps_cons; [eapply calls; [reflexivity|discriminate]|].
  eapply steps_cons; [eapply read_eof; [reflexivity|reflexivity|apply receive_closed; reflexivity]|]. apply steps_nil.
Qed.

(* ---- C43 ---- *)
Definition good_ending (e : ending) : Prop := match e with Failure r => (0 <= r < 1)%Q | _ => True end.
Definition failed (e : ending) : bool := match e with Failure _ => true | _ => false end.
(* How many failures in a row there are at the end. *)
Fixpoint streak (es : list ending) : nat := match es with [] => 0 | e :: es => if failed e then (if forallb failed es then S (length es) else streak es) else streak es end.
Definition after (es : list ending) : Q := fold_left (fun s e => fst (pass s e)) es 1%Q.
Definition power (n : nat) : Z := 2 ^ Z.min (Z.of_nat n) 6.
Lemma streak_snoc es e : streak (es ++ [e]) = if failed e then S (streak es) else 0.
Proof.
  induction es as [|x es IH]; cbn [streak app]; [destruct (failed e); auto|]. rewrite IH. rewrite forallb_app. cbn [forallb]. destruct (failed e); cbn.
  - rewrite andb_true_r. destruct (failed x); [|auto]. destruct (forallb failed es) eqn:E; [|auto]. rewrite app_length. cbn. lia.
  - rewrite andb_false_r. destruct (failed x); auto.
Qed.
Lemma after_power es : (after es == inject_Z (power (streak es)))%Q.
Proof.
  induction es as [|e es IH] using rev_ind; [reflexivity|]. unfold after in *. rewrite fold_left_app, streak_snoc. cbn [fold_left].
  destruct e as [| |r]; cbn [pass fst failed]; [reflexivity|reflexivity|]. set (s := fold_left _ es 1%Q) in *.
  destruct (Qle_bool 64 s) eqn:E; cbn [negb].
  - apply Qle_bool_iff in E. rewrite IH in E |- *. unfold power in *. change 64%Q with (inject_Z 64) in E. rewrite <- Zle_Qle in E.
    assert (X : (6 <= Z.of_nat (streak es))%Z). { destruct (Z_le_gt_dec 6 (Z.of_nat (streak es))) as [X|X]; [auto|]. exfalso. rewrite Z.min_l in E by lia. assert (Y : (2 ^ Z.of_nat (streak es) <= 2 ^ 5)%Z) by (apply Z.pow_le_mono_r; lia). change (2 ^ 5)%Z with 32%Z in Y. lia. }
    rewrite !Z.min_r by lia. reflexivity.
  - assert (X : (s < 64)%Q). { destruct (Qlt_le_dec s 64) as [X|X]; [auto|]. apply Qle_bool_iff in X. congruence. } rewrite IH in X |- *. unfold power in *. change 64%Q with (inject_Z 64) in X. rewrite <- Zlt_Qlt in X.
    assert (Y : (Z.of_nat (streak es) < 6)%Z). { destruct (Z_le_gt_dec 6 (Z.of_nat (streak es))) as [Y|Y]; [|lia]. exfalso. rewrite Z.min_r in X by lia. change (2 ^ 6)%Z with 64%Z in X. lia. }
    rewrite !Z.min_l by lia. change 2%Q with (inject_Z 2). rewrite <- inject_Z_mult. rewrite Nat2Z.inj_succ, Z.pow_succ_r by lia. rewrite Z.mul_comm. reflexivity.
Qed.
Lemma loop_nth es2 : forall es1 s, s = after es1 -> forall i, i < length es2 -> nth_error (loop s es2) i = match nth_error es2 i with Some e => Some (snd (pass (after (es1 ++ firstn i es2)) e)) | None => None end.
Proof.
  induction es2 as [|e es2 IH]; intros es1 s E i L; [cbn in L; lia|]. cbn [loop]. destruct (pass s e) as [s' d] eqn:EP. destruct i as [|i]; cbn [nth_error firstn].
  - rewrite app_nil_r, <- E, EP. auto.
  - cbn in L. rewrite (IH (es1 ++ [e]) s'); [|unfold after; rewrite fold_left_app; cbn; fold (after es1); rewrite <- E, EP; auto|lia]. rewrite <- app_assoc. auto.
Qed.
(* After a success or a timeout the loop goes on at once; after an error it sleeps a
   whole number of seconds, from none to one less than 2^k, where k is the number of
   errors in a row before this one, but at most 6; and if the random number allows
   it, any of them. *)
Theorem C43_backoff : forall es i e, Forall good_ending es -> nth_error es i = Some e ->
  match e with
  | Failure _ => exists d, nth_error (main_loop es) i = Some (Some d) /\ (0 <= d < power (streak (firstn i es)))%Z
  | _ => nth_error (main_loop es) i = Some None
  end.
Proof.
  intros es i e G E. assert (L : i < length es) by (apply nth_error_Some; congruence). assert (X := loop_nth es [] 1%Q eq_refl i L). fold (main_loop es) in X. rewrite E in X. cbn [app] in X. rewrite X.
  destruct e as [| |r]; cbn [pass snd]; auto. eexists. split; [reflexivity|].
  assert (R : (0 <= r < 1)%Q). { rewrite Forall_forall in G. apply (G (Failure r)). eapply nth_error_In; eauto. } destruct R as [R0 R1].
  assert (AP := after_power (firstn i es)). set (s := after _) in *. assert (PP : (0 < power (streak (firstn i es)))%Z) by (unfold power; apply Z.pow_pos_nonneg; lia).
  assert (SP : (0 < s)%Q) by (rewrite AP; change 0%Q with (inject_Z 0); rewrite <- Zlt_Qlt; auto). split.
  - rewrite <- (Qfloor_Z 0). apply Qfloor_resp_le. change (inject_Z 0) with 0%Q. apply Qmult_le_0_compat; [auto|apply Qlt_le_weak; auto].
  - assert (B : (r * s < s)%Q). { rewrite <- (Qmult_1_l s) at 2. apply Qmult_lt_compat_r; auto. } rewrite AP in B at 2. rewrite Zlt_Qlt. eapply Qle_lt_trans; [apply Qfloor_le|exact B].
Qed.
Print Assumptions C43_backoff.
Theorem C43_range : forall es d, Forall good_ending es -> (0 <= d < power (streak es))%Z ->
  exists r, good_ending (Failure r) /\ nth_error (main_loop (es ++ [Failure r])) (length es) = Some (Some d).
Proof.
  intros es d G D. assert (AP := after_power es). set (p := power (streak es)) in *. assert (PP : (0 < inject_Z p)%Q) by (change 0%Q with (inject_Z 0); rewrite <- Zlt_Qlt; lia).
  exists (inject_Z d / inject_Z p)%Q. split.
  - cbn. split; [apply Qle_shift_div_l; [auto|]; rewrite Qmult_0_l; change 0%Q with (inject_Z 0); rewrite <- Zle_Qle; lia|]. apply Qlt_shift_div_r; [auto|]. rewrite Qmult_1_l, <- Zlt_Qlt. lia.
  - assert (L : length es < length (es ++ [Failure (inject_Z d / inject_Z p)])) by (rewrite app_length; cbn; lia). assert (X := loop_nth (es ++ [Failure (inject_Z d / inject_Z p)]) [] 1%Q eq_refl _ L). fold (main_loop (es ++ [Failure (inject_Z d / inject_Z p)])) in X. rewrite X.
    rewrite nth_error_app2, Nat.sub_diag by lia. cbn [nth_error app pass snd]. rewrite firstn_app, Nat.sub_diag, firstn_all. cbn [firstn]. rewrite app_nil_r. f_equal. f_equal.
    transitivity (Qfloor (inject_Z d)); [|apply Qfloor_Z]. apply Qfloor_comp. rewrite AP. field. intros Z. rewrite Z in PP. apply (Qlt_irrefl _ PP).
Qed.
Print Assumptions C43_range.
(* In particular there is no pause after the first error in a row, whatever the
   random number; and never one of more than 63 seconds. *)
Corollary C43_first : forall es i r, Forall good_ending es -> nth_error es i = Some (Failure r) ->
  (streak (firstn i es) = 0 -> nth_error (main_loop es) i = Some (Some 0%Z)) /\ exists d, nth_error (main_loop es) i = Some (Some d) /\ (0 <= d <= 63)%Z.
Proof.
  intros es i r G E. destruct (C43_backoff es i _ G E) as (d & X & Y). split.
  - intros S. rewrite S in Y. change (power 0) with 1%Z in Y. rewrite X. f_equal. f_equal. lia.
  - exists d. split; [auto|]. assert ((power (streak (firstn i es)) <= 2 ^ 6)%Z) by (unfold power; apply Z.pow_le_mono_r; lia). change (2 ^ 6)%Z with 64%Z in *. lia.
Qed.
Print Assumptions C43_first.
Example ex_backoff : main_loop [Failure (3 # 4); Failure (3 # 4); Failure (3 # 4); Success; Failure (3 # 4); Failure (3 # 4); Timeout; Failure (1 # 2)] =
  [Some 0%Z; Some 1%Z; Some 3%Z; None; Some 0%Z; Some 1%Z; None; Some 0%Z].
Proof. reflexivity. Qed.

(* ---- C50 ---- *)
(* Some of a list, in its order. *)
Inductive part_of {A} : list A -> list A -> Prop :=
| part_nil : part_of [] []
| part_skip : forall x l m, part_of l m -> part_of l (x :: m)
| part_keep : forall x l m, part_of l m -> part_of (x :: l) (x :: m).
(* Every run that was received is answered: exactly one details part is sent, with
   the result of the grading, or JE if the input was not found or grading failed;
   everything else is sent too, unless the result cannot be encoded. *)
Theorem C50_upload : forall input_ok graded encodes has_logs has_trace,
  let '(parts, ok) := upload_parts input_ok graded encodes has_logs has_trace in
  (exists a b, parts = a ++ [Details (negb (input_ok && graded))] ++ b /\ (forall je, ~ In (Details je) (a ++ b))) /\
  (In FilesZip parts <-> input_ok = true) /\
  (ok = false <-> input_ok = true /\ graded = true /\ encodes = false) /\
  (ok = true -> (In Logs parts <-> has_logs = true) /\ (In Tracing parts <-> has_trace = true)) /\
  part_of parts [FilesZip; Details (negb (input_ok && graded)); Logs; Tracing].
Proof.
  intros [] [] [] [] []; cbn; (split; [|split; [|split; [|split]]]); try (intuition (try discriminate; try congruence); fail);
    try (repeat constructor; fail);
    first [exists [FilesZip]; eexists; (split; [reflexivity|])|exists []; eexists; (split; [reflexivity|])]; cbn; intros je X; intuition discriminate.
Qed.
(* It is a success for the runner exactly if everything was sent and an answer came. *)
Theorem C50_success : forall uploaded a, processRun uploaded a = true <-> uploaded = true /\ exists status, a = Answer status.
Proof. intros [] []; cbn; split; try discriminate; eauto; intros [? [? ?]]; discriminate. Qed.
Print Assumptions C50_success.
Print Assumptions C50_upload.
(* An upload that the grader refuses counts as a success, so there is no backoff and
   no error is logged. *)
Theorem C50_status_refuted : forall parts status, snd parts = true -> processRun (snd (parts : list part * bool)) (Answer status) = true.
Proof. intros parts status ->. reflexivity. Qed.
Print Assumptions C50_status_refuted.

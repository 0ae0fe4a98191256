(* C69, C70. *)
From Coq Require Import String Ascii List Arith NArith ZArith QArith Bool Lia.
From Verif Require Import TrcModel TrcSpec TrcProofs.
Import ListNotations.
Local Open Scope string_scope.
Local Open Scope Z_scope.

(* ---- C69 ---- *)
(* Whatever events a program collected, sending them does not fail, and the other side
   has the same events in the same order. *)
Theorem C69_round_trip : forall show dec equal_fold big, json_numbers show dec ->
  forall es, Forall collected es ->
  exists es', UnmarshalJSON dec equal_fold big (MarshalJSON show es) = Events es' /\ Forall2 same_event es es'.
Proof.
  intros show dec ef big NUM es H.
  assert (SH : Forall shape es) by (eapply Forall_impl; [|exact H]; intros e; apply (collected_shape ef)).
  destruct (arrive_all show dec NUM ef big es SH) as (rs & es' & E1 & E2 & S).
  exists es'. unfold UnmarshalJSON, MarshalJSON. rewrite E1, E2. auto.
Qed.
Print Assumptions C69_round_trip.
(* Adding what arrived to further collectors changes neither its times nor anything else. *)
Theorem C69_again : forall dec equal_fold big j es, UnmarshalJSON dec equal_fold big j = Events es ->
  Forall (fun e => forall now, Finalize now e = Some e) es.
Proof.
  intros dec ef big j es. unfold UnmarshalJSON. destruct j; try discriminate; [intros [= <-]; constructor|].
  destruct (dec_raws dec ef l) as [rs|]; [|discriminate]. destruct (events_of big rs) eqn:E; [|discriminate]. intros [= <-].
  eapply events_of_final, E.
Qed.
Print Assumptions C69_again.
Lemma NewSyncID_small c0 n : 0 <= c0 < 2 ^ 32 -> Z.of_nat n <= 2 ^ 53 - 2 ^ 32 -> NewSyncID c0 n = c0 + Z.of_nat n.
Proof. intros H N. unfold NewSyncID. apply Z.mod_small. change (2 ^ 53) with 9007199254740992 in N. change (2 ^ 32) with 4294967296 in *. change (2 ^ 64) with 18446744073709551616. lia. Qed.
(* The grader's clock_sync event of a run and the runner's that came back carry the same
   sync_id, and no other run's. *)
Theorem C69_sync : forall show dec equal_fold big, json_numbers show dec ->
  forall c0 n p t p' t' now now' later later' issued es es' i received,
  0 <= c0 < 2 ^ 32 -> Z.of_nat n <= 2 ^ 53 - 2 ^ 32 ->
  Finalize later (NewIssuerClockSyncEvent (NewEventFactory p t) now (NewSyncID c0 n)) = Some issued ->
  Finalize later' (NewReceiverClockSyncEvent (NewEventFactory p' t') now' (NewSyncID c0 n)) = Some received ->
  Forall collected es -> nth_error es i = Some received ->
  UnmarshalJSON dec equal_fold big (MarshalJSON show es) = Events es' ->
  exists e, nth_error es' i = Some e /\
    args_get (Args (base e)) "sync_id" = Some (VInt (c0 + Z.of_nat n)) /\
    args_get (Args (base issued)) "sync_id" = Some (VInt (c0 + Z.of_nat n)).
Proof.
  intros show dec ef big NUM c0 n p t p' t' now now' later later' issued es es' i received C N FI FR ES NTH U.
  destruct (C69_round_trip show dec ef big NUM es ES) as (es2 & U2 & F2). rewrite U2 in U. injection U as ->.
  rewrite NewSyncID_small in * by auto. cbn in FI, FR. injection FI as <-. injection FR as <-.
  assert (X : exists e, nth_error es' i = Some e /\ same_event (Normal (finalize_normal (NewEvent (NewEventFactory p' t') now' "clock_sync" EventClockSync [("sync_id", VInt (c0 + Z.of_nat n))]))) e).
  { clear ES U2. revert i NTH. induction F2 as [|a b es es2 S F2 IH]; intros [|i] NTH; try discriminate; cbn in NTH; [injection NTH as ->; eexists; split; [reflexivity|exact S]|]. apply IH, NTH. }
  destruct X as (e & X1 & X2). exists e. split; [auto|]. split; [|reflexivity].
  inversion X2 as [| |n1 n' T|n1 n' s s' T SH SA A1 A2 FN]; subst; [elim T; reflexivity|].
  cbn in A1. injection A1 as <-. cbn [base]. rewrite A2. f_equal. f_equal. destruct FN as [FN _].
  assert (Z.abs (c0 + Z.of_nat n) <= 2 ^ 53) by (change (2 ^ 53) with 9007199254740992 in *; change (2 ^ 32) with 4294967296 in *; lia).
  apply (f_equal Qnum) in FN; [cbn in FN; auto|auto].
Qed.
Print Assumptions C69_sync.
Theorem C69_sync_unique : forall c0 n m, 0 <= c0 < 2 ^ 32 -> Z.of_nat n < 2 ^ 63 -> Z.of_nat m < 2 ^ 63 -> NewSyncID c0 n = NewSyncID c0 m -> n = m.
Proof.
  intros c0 n m H N M E. unfold NewSyncID in E. rewrite !Z.mod_small in E; [lia| |]; change (2 ^ 32) with 4294967296 in *; change (2 ^ 63) with 9223372036854775808 in *; change (2 ^ 64) with 18446744073709551616; lia.
Qed.
Print Assumptions C69_sync_unique.
(* Decoding an upload panics exactly when it is a list that decodes and holds a complete
   event without a duration or a clock_sync one without a sync_id that is a number. *)
Theorem C69_panics : forall dec equal_fold big j,
  UnmarshalJSON dec equal_fold big j = Panics <->
  exists l rs r, j = JArr l /\ dec_raws dec equal_fold l = Some rs /\ In r rs /\
    ((r_type r = "X" /\ r_dur r = None) \/ (r_type r = "c" /\ forall q, args_get (r_args r) "sync_id" <> Some (VFloat q))).
Proof.
  intros dec ef big j. unfold UnmarshalJSON. split.
  - destruct j; try discriminate. destruct (dec_raws dec ef l) as [rs|] eqn:D; [|discriminate]. destruct (events_of big rs) eqn:E; [discriminate|]. intros _.
    apply events_of_none in E as (r & I & E). apply event_of_none in E. eauto 8.
  - intros (l & rs & r & -> & D & I & E). rewrite D. apply event_of_none with (big := big) in E.
    assert (X : events_of big rs = None) by (apply events_of_none; eauto). rewrite X. reflexivity.
Qed.
Print Assumptions C69_panics.
(* So two small files take the grader's handler down: nothing an authenticated runner
   sends is refused with an error only. *)
Theorem C69_panics_refuted : forall dec equal_fold big,
  UnmarshalJSON dec equal_fold big (JArr [JObj [("ph", JStr "X")]]) = Panics /\
  UnmarshalJSON dec equal_fold big (JArr [JObj [("ph", JStr "c")]]) = Panics /\
  UnmarshalJSON dec equal_fold big (JArr [JObj [("ph", JStr "c"); ("args", JObj [("sync_id", JStr "12")])]]) = Panics.
Proof. repeat split; reflexivity. Qed.
Print Assumptions C69_panics_refuted.
(* "An argument arrives unchanged" does not hold: the attempt's ID of the runner's "grade"
   event goes through a float64. *)
Theorem C69_attempt_id_refuted : forall show dec equal_fold big,
  exists e e' z, collected e /\ 0 <= z < 2 ^ 63 /\
    args_get (Args (base e)) "id" = Some (VInt z) /\
    UnmarshalJSON dec equal_fold big (MarshalJSON show [e]) = Events [e'] /\
    args_get (Args (base e')) "id" = Some (VFloat (inject_Z (z - 1))).
Proof.
  intros show dec ef big.
  set (z := 2 ^ 53 + 1). set (e0 := Normal (NewEvent (NewEventFactory "Runner (a)" "main") 1600000000000000 "grade" EventBegin [("id", VInt z)])).
  eexists _, _, z. split; [exists e0, 1600000000000001; split; [|split; [unfold clock; lia|reflexivity]]; constructor; [unfold clock; lia|discriminate|discriminate|constructor; [constructor; cbn; lia|constructor]]|].
  split; [unfold z; lia|]. split; [reflexivity|]. split; [reflexivity|]. vm_compute. reflexivity.
Qed.
Print Assumptions C69_attempt_id_refuted.
(* Numbers as encoding/json has them. *)
Definition show_q (q : Q) : json := JDec q.
Definition dec_q (q : Q) : option Q := Some q.
Example C69_numbers : json_numbers show_q dec_q.
Proof. intros q. reflexivity. Qed.
(* A trace as a runner's: clock_sync, begin, complete with a nested value. *)
Example C69_met : exists es, length es = 3%nat /\ Forall collected es /\
  exists es', UnmarshalJSON dec_q (fun _ _ => false) (fun _ => 0) (MarshalJSON show_q es) = Events es' /\ es' <> es.
Proof.
  set (f := NewEventFactory "Runner (a)" "main").
  set (e1 := NewReceiverClockSyncEvent f 1600000000000000 4294967297).
  set (e2 := Normal (NewEvent f 1600000000000100 "grade" EventBegin [("id", VInt 5); ("language", VStr "cpp17-gcc")])).
  set (e3 := NewCompleteEvent f 1600000000000200 "compile" [("x", VObj [("a", VFloat (1 # 2)); ("b", VArr [VInt 3; VNull])])]).
  exists (match Finalize 1600000000000300 e1, Finalize 1600000000000300 e2, Finalize 1600000000000300 e3 with Some a, Some b, Some c => [a; b; c] | _, _, _ => [] end).
  split; [reflexivity|]. split.
  - cbn [Finalize e1 e2 e3 NewCompleteEvent NewReceiverClockSyncEvent finalized NewEvent].
    constructor; [exists e1, 1600000000000300|constructor; [exists e2, 1600000000000300|constructor; [exists e3, 1600000000000300|constructor]]];
      (split; [|split; [unfold clock; lia|reflexivity]]); constructor; try (unfold clock; lia); try discriminate; repeat (constructor; cbn; try lia); cbn; intuition discriminate.
  - eexists. split; [vm_compute; reflexivity|discriminate].
Qed.

(* ---- C70 ---- *)
Section C.
Variable kind : nat -> collector.
Variable text : event -> string.
Notation exec := (exec kind text).
Lemma entry ls s c i k e : exec ls s -> In (i, k, e) (log s c) -> exists d r, track kind ls s i k e d r /\ In c d.
Proof.
  intros E H. pose proof (inv_exec _ _ _ _ E) as I. destruct (iv_log _ _ _ I _ _ _ _ H) as (e0 & x & A).
  assert (X : exists e1 d r, track kind ls s i k e1 d r).
  { destruct (iv_done _ _ _ I _ _ _ _ A) as [(e' & cs & ph & B)|(ok & B)].
    - destruct (iv_now _ _ _ I _ _ _ _ _ B) as (_ & d & T). eauto.
    - destruct (iv_ret _ _ _ I _ _ _ B) as (_ & _ & e1 & d & r & T & _). eauto. }
  destruct X as (e1 & d & r & T). pose proof T as (e2 & x2 & _ & _ & _ & _ & T5). destruct (T5 _ _ H) as (Y & -> & _). eauto.
Qed.
End C.
(* In every interleaving of goroutines that add events to contexts: *)
(* what is in a collector was added by somebody to a context with this collector, and is
   finalized. *)
Theorem C70_kept : forall kind text ls s, exec kind text ls s -> forall c i k e, In (i, k, e) (log s c) ->
  exists e0 x now, In (Adds i k e0 x) ls /\ In c (collectors x) /\ Finalize now e0 = Some e.
Proof.
  intros kind text ls s E c i k e H. destruct (entry _ _ _ _ _ _ _ _ E H) as (d & r & (e0 & x & T1 & T2 & _ & _ & T5) & D).
  destruct (T5 _ _ H) as (_ & _ & now & F). exists e0, x, now. split; [auto|]. split; [rewrite T2; apply in_or_app; auto|auto].
Qed.
Print Assumptions C70_kept.
(* each event is there at most once; *)
Theorem C70_once : forall kind text ls s, exec kind text ls s -> contexts ls -> forall c, NoDup (keys s c).
Proof. intros kind text ls s E W c. eapply once_exec; eauto. Qed.
Print Assumptions C70_once.
(* the collectors of a context agree on it: its duration is measured once; *)
Theorem C70_same : forall kind text ls s, exec kind text ls s -> forall c c' i k e e',
  In (i, k, e) (log s c) -> In (i, k, e') (log s c') -> e = e'.
Proof.
  intros kind text ls s E c c' i k e e' H H'. destruct (entry _ _ _ _ _ _ _ _ E H) as (d & r & (e0 & x & _ & _ & _ & _ & T5) & _).
  destruct (T5 _ _ H') as (_ & -> & _). auto.
Qed.
Print Assumptions C70_same.
(* an Add that returned without an error reached every collector of the context; *)
Theorem C70_complete : forall kind text ls s, exec kind text ls s -> forall i k e0 x c,
  In (Adds i k e0 x) ls -> In (Returns i k true) ls -> In c (collectors x) -> kind c <> Null -> exists e, In (i, k, e) (log s c).
Proof.
  intros kind text ls s E i k e0 x c A R C K. pose proof (inv_exec _ _ _ _ E) as I.
  destruct (iv_ret _ _ _ I _ _ _ R) as (_ & _ & e1 & d & r & (e2 & x2 & T1 & T2 & _ & T4 & _) & X & _). specialize (X eq_refl). subst r.
  destruct (iv_uniq _ _ _ I _ _ _ _ _ _ A T1) as [-> ->]. exists e1. apply T4; [|auto]. rewrite T2, app_nil_r in C. auto.
Qed.
Print Assumptions C70_complete.
(* one that returned an error did so at a file, having reached all those before it: the
   memory of the context that was used, which is what is sent and kept with the run, has
   every event whatever happens to the file; *)
Theorem C70_failed : forall kind text ls s, exec kind text ls s -> forall i k e0 x,
  In (Adds i k e0 x) ls -> In (Returns i k false) ls ->
  exists before f after, collectors x = (before ++ f :: after)%list /\ kind f = Writer /\
    (forall c, In c before -> kind c <> Null -> exists e, In (i, k, e) (log s c)).
Proof.
  intros kind text ls s E i k e0 x A R. pose proof (inv_exec _ _ _ _ E) as I.
  destruct (iv_ret _ _ _ I _ _ _ R) as (_ & _ & e1 & d & r & (e2 & x2 & T1 & T2 & _ & T4 & _) & _ & X). destruct (X eq_refl) as (f & cs & -> & K).
  destruct (iv_uniq _ _ _ I _ _ _ _ _ _ A T1) as [-> ->]. exists d, f, cs. split; [auto|]. split; [auto|]. intros c C N. exists e1. auto.
Qed.
Print Assumptions C70_failed.
Theorem C70_own_memory : forall kind text ls s, exec kind text ls s -> forall i k e0 m p ok,
  In (Adds i k e0 (Debug m p)) ls -> In (Returns i k ok) ls -> kind m = Memory -> exists e, In (i, k, e) (log s m).
Proof.
  intros kind text ls s E i k e0 m p [|] A R K.
  - eapply C70_complete; eauto; [left; auto|congruence].
  - destruct (C70_failed _ _ _ _ E _ _ _ _ A R) as (d & f & r & X & Y & Z). destruct d as [|m' d]; cbn in X; injection X as -> X; [congruence|].
    apply Z; [left; auto|congruence].
Qed.
Print Assumptions C70_own_memory.
(* an event whose Add returned before another one's began is before it in every collector
   that has both: in particular those of one goroutine are in the order they were added. *)
Theorem C70_order : forall kind text ls1 ls2 ls3 s i k ok j k' e x, 
  exec kind text (ls1 ++ Returns i k ok :: ls2 ++ Adds j k' e x :: ls3) s -> contexts (ls1 ++ Returns i k ok :: ls2 ++ Adds j k' e x :: ls3) ->
  forall c, before (keys s c) (i, k) (j, k').
Proof.
  intros kind text ls1 ls2 ls3 s i k ok j k' e x E W c n m N M. pose proof (C70_once _ _ _ _ E W c) as ND.
  destruct (Nat.lt_ge_cases n m) as [|G]; [auto|exfalso].
  replace (ls1 ++ Returns i k ok :: ls2 ++ Adds j k' e x :: ls3)%list with ((ls1 ++ Returns i k ok :: ls2) ++ (Adds j k' e x :: ls3))%list in E by (rewrite <- app_assoc; reflexivity).
  pose proof E as E0. replace (Adds j k' e x :: ls3) with ([Adds j k' e x] ++ ls3)%list in E0 by reflexivity. rewrite app_assoc in E0.
  destruct (exec_split _ _ _ _ _ E0) as (s2 & E2 & L2 & FZ). inversion E2 as [Q|l0 s0 l' s' E' S Q]; [destruct (ls1 ++ Returns i k ok :: ls2)%list; discriminate|].
  apply app_inj_tail in Q as [-> ->]. subst s'. pose proof (inv_exec _ _ _ _ E') as I.
  assert (FR : forall c e', ~ In (j, k', e') (log s0 c)).
  { inversion S; subst. intros c1 e1 X. destruct (iv_log _ _ _ I _ _ _ _ X) as (e2 & y & Y). apply (iv_adds _ _ _ I) in Y. lia. }
  assert (LOG0 : log s2 c = log s0 c) by (inversion S; reflexivity).
  destruct (L2 c) as (m2 & Lm). rewrite LOG0 in Lm.
  (* (i, k) is in the old part or nowhere *)
  assert (IN : In (i, k) (map fst (log s0 c))).
  { apply nth_error_In in N. unfold keys in N. apply in_map_iff in N as ([[i1 k1] e1] & Q & N). cbn in Q. injection Q as -> ->.
    assert (X : In (i, k, e1) (log s2 c)). { eapply FZ; [|exact N]. apply in_or_app. left. apply in_or_app. right. left. reflexivity. }
    rewrite LOG0 in X. apply in_map_iff. exists (i, k, e1). auto. }
  apply In_nth_error in IN as (n0 & IN).
  assert (LEN : (n0 < length (map fst (log s0 c)))%nat) by (apply nth_error_Some; congruence).
  assert (N0 : nth_error (keys s c) n0 = Some (i, k)). { unfold keys. rewrite Lm, map_app, nth_error_app1; auto. }
  assert (n = n0). { eapply NoDup_nth_error; [exact ND| |congruence]. apply nth_error_Some. congruence. } subst n0.
  assert (M0 : nth_error (map fst (log s0 c)) m = Some (j, k')).
  { unfold keys in M. rewrite Lm, map_app, nth_error_app1 in M; [auto|lia]. }
  apply nth_error_In in M0. apply in_map_iff in M0 as ([[j1 k1] e1] & Q & X). cbn in Q. injection Q as -> ->. eapply FR, X.
Qed.
Print Assumptions C70_order.
(* a file no write to which failed holds one line per event, in this order, whole unless
   one is being written. *)
Theorem C70_file : forall kind text ls s, exec kind text ls s -> writes_ok ls -> forall c, kind c = Writer ->
  exists rest, file s c = (lines text (log s c) ++ rest)%string /\
    (lock s c = None -> rest = "") /\ (rest = "" \/ exists i k e0 x e now, In (Adds i k e0 x) ls /\ Finalize now e0 = Some e /\ rest = text e).
Proof.
  intros kind text ls s E W c K. exists (tail_of text s c). split; [eapply file_exec; eauto|]. unfold tail_of. split; [intros ->; auto|].
  pose proof (inv_exec _ _ _ _ E) as I. destruct (lock s c) as [i|] eqn:L; [|auto]. destruct (adding s i) as [[[[k e] cs] ph]|] eqn:A; [|auto]. destruct ph; auto.
  right. destruct (iv_phase _ _ _ I _ _ _ _ _ A) as (c0 & cs0 & _ & _ & _ & _ & e0 & x & now & X & Y); [discriminate|]. exists i, k, e0, x, e, now. auto.
Qed.
Print Assumptions C70_file.
(* An Add that is going on does not wait forever: while there is one, a step can be taken
   that starts no other, and each such step is a part of one of them, of which there are
   finitely many. *)
Theorem C70_never_stuck : forall kind text ls s, exec kind text ls s ->
  (forall i k e x, In (Adds i k e x) ls -> finalizable e) ->
  forall i, adding s i <> None -> exists l s', step kind text s l s' /\ ~ starts l.
Proof.
  intros kind text ls s E FI i A. pose proof (inv_exec _ _ _ _ E) as I. destruct (adding s i) as [[[[k e] cs] ph]|] eqn:AE; [|congruence]. clear A.
  assert (MOVE : forall j k e cs ph, adding s j = Some (k, e, cs, ph) -> ph <> Between -> exists l s', step kind text s l s' /\ ~ starts l).
  { intros j k1 e1 cs1 ph1 B N. destruct (iv_phase _ _ _ I _ _ _ _ _ B N) as (c & cs' & -> & _). destruct ph1; [congruence| |]; eexists _, _; (split; [econstructor; eassumption|intros []]). }
  destruct ph; [|eapply MOVE; [exact AE|discriminate]|eapply MOVE; [exact AE|discriminate]].
  destruct cs as [|c cs]; [eexists _, _; split; [eapply returns; eauto|intros []]|].
  assert (F : exists e', Finalize 0 e = Some e').
  { destruct (iv_now _ _ _ I _ _ _ _ _ AE) as (_ & d & e0 & x & T1 & _ & [->|(now & F)] & _); [apply (FI _ _ _ _ T1)|]. exists e. eapply finalize_final, F. }
  destruct F as (e' & F). destruct (kind c) eqn:K.
  - eexists _, _. split; [eapply memory_add; eauto|intros []].
  - destruct (lock s c) as [j|] eqn:L; [|eexists _, _; split; [eapply writer_locks; eauto|intros []]].
    destruct (iv_lock _ _ _ I _ _ L) as (k1 & e1 & cs1 & ph1 & B & N). eapply MOVE; eauto.
  - eexists _, _. split; [eapply null_add; eauto|intros []].
Qed.
Print Assumptions C70_never_stuck.
Theorem C70_bounded : forall kind text s l s', step kind text s l s' -> ~ starts l ->
  exists i, (left (adding s' i) < left (adding s i))%nat /\ forall j, j <> i -> adding s' j = adding s j.
Proof.
  intros kind text s l s' S N. destruct S; [elim N; exact Logic.I|..]; exists i; cbn [adding with_adding with_lock with_file with_log]; 
    (split; [rewrite set_nat_eq, H; cbn; lia|intros; apply set_nat_ne; auto]).
Qed.
Print Assumptions C70_bounded.

(* Two goroutines and a file that fails: goroutine 0 adds "a" to a debug context over the
   file, 1 adds "b" meanwhile, whose write fails half way. *)
Definition ex_kind (c : nat) : collector := match c with 0%nat => Writer | 1%nat | 2%nat => Memory | _ => Null end.
Definition ex_text (e : event) : string := ("{" ++ Name (base e) ++ "}")%string.
Definition ex_event (name : string) : event := NewCompleteEvent (NewEventFactory "p" "t") 100 name [].
Definition ctx1 : context := Debug 1 (Root 0).
Definition ctx2 : context := Debug 2 (Root 0).
Definition run_to (kind : nat -> collector) (text : event -> string) (P : list label -> state -> Prop) : Prop := exists ls s, exec kind text ls s /\ P ls s.
Lemma fwd_step kind text ls s l s' : exec kind text ls s -> step kind text s l s' -> exec kind text (ls ++ [l]) s'.
Proof. intros; econstructor; eauto. Qed.
Ltac tidy R := cbn [app with_adding with_added with_log with_file with_lock adding added log file lock collectors ctx1 ctx2 init] in R.
Ltac fwd R c := eapply fwd_step in R; [|c]; tidy R.
Example C70_met : exists ls s, exec ex_kind ex_text ls s /\ contexts ls /\
  (forall i k e x, In (Adds i k e x) ls -> finalizable e) /\
  In (Returns 0%nat 0%nat true) ls /\ In (Returns 1%nat 0%nat false) ls /\
  (exists e, log s 0%nat = [(0%nat, 0%nat, e)] /\ log s 1%nat = [(0%nat, 0%nat, e)]) /\ (exists e, log s 2%nat = [(1%nat, 0%nat, e)]) /\
  file s 0%nat = ("{a}," ++ LF ++ "{b")%string.
Proof.
  pose proof (exec_nil ex_kind ex_text) as R.
  fwd R ltac:(eapply adds with (i := 0%nat) (e := ex_event "a") (c := ctx1); reflexivity).
  fwd R ltac:(eapply adds with (i := 1%nat) (e := ex_event "b") (c := ctx2); reflexivity).
  fwd R ltac:(eapply memory_add with (i := 0%nat) (now := 150); reflexivity).
  fwd R ltac:(eapply memory_add with (i := 1%nat) (now := 160); reflexivity).
  fwd R ltac:(eapply writer_locks with (i := 0%nat) (now := 170); reflexivity).
  fwd R ltac:(eapply writer_writes with (i := 0%nat); reflexivity).
  fwd R ltac:(eapply writer_ends with (i := 0%nat); reflexivity).
  fwd R ltac:(eapply writer_locks with (i := 1%nat) (now := 180); reflexivity).
  fwd R ltac:(eapply returns with (i := 0%nat); reflexivity).
  fwd R ltac:(eapply writer_fails with (i := 1%nat) (p := "{b") (r := "}"); reflexivity).
  eexists _, _. split; [exact R|]. split; [|split; [|split; [|split]]].
  - intros i k e x H. cbn in H. repeat (destruct H as [H|H]; [try discriminate H; injection H as <- <- <- <-; cbn; repeat constructor; cbn; intuition discriminate|]). contradiction.
  - intros i k e x H. cbn in H. repeat (destruct H as [H|H]; [try discriminate H; injection H as <- <- <- <-; intros now; eexists; reflexivity|]). contradiction.
  - cbn. auto 20.
  - cbn. auto 20.
  - split; [eexists; split; reflexivity|]. split; [eexists; reflexivity|]. reflexivity.
Qed.
(* "The trace file has whole lines only" does not hold: after a write that failed the next
   event is on the broken line. *)
Theorem C70_broken_line_refuted : exists ls s e e', exec ex_kind ex_text ls s /\ contexts ls /\ lock s 0%nat = None /\
  In (Returns 0%nat 0%nat false) ls /\ In (Returns 0%nat 1%nat true) ls /\
  Name (base e) = "b" /\ Name (base e') = "c" /\ log s 0%nat = [(0%nat, 1%nat, e')] /\ log s 1%nat = [(0%nat, 0%nat, e); (0%nat, 1%nat, e')] /\
  file s 0%nat = ("{b" ++ "{c}," ++ LF)%string.
Proof.
  pose proof (exec_nil ex_kind ex_text) as R.
  fwd R ltac:(eapply adds with (i := 0%nat) (e := ex_event "b") (c := ctx1); reflexivity).
  fwd R ltac:(eapply memory_add with (i := 0%nat) (now := 150); reflexivity).
  fwd R ltac:(eapply writer_locks with (i := 0%nat) (now := 170); reflexivity).
  fwd R ltac:(eapply writer_fails with (i := 0%nat) (p := "{b") (r := "}"); reflexivity).
  fwd R ltac:(eapply adds with (i := 0%nat) (e := ex_event "c") (c := ctx1); reflexivity).
  fwd R ltac:(eapply memory_add with (i := 0%nat) (now := 180); reflexivity).
  fwd R ltac:(eapply writer_locks with (i := 0%nat) (now := 190); reflexivity).
  fwd R ltac:(eapply writer_writes with (i := 0%nat); reflexivity).
  fwd R ltac:(eapply writer_ends with (i := 0%nat); reflexivity).
  fwd R ltac:(eapply returns with (i := 0%nat); reflexivity).
  eexists _, _, _, _. split; [exact R|]. split; [|split; [reflexivity|split; [cbn; auto 20|split; [cbn; auto 20|]]]].
  - intros i k e x H. cbn in H. repeat (destruct H as [H|H]; [try discriminate H; injection H as <- <- <- <-; cbn; repeat constructor; cbn; intuition discriminate|]). contradiction.
  - split; [|split; [|split; [reflexivity|split; [reflexivity|reflexivity]]]]; reflexivity.
Qed.
Print Assumptions C70_broken_line_refuted.
(* The events of the programs, and those that arrived, can be finalized. *)
Theorem C70_finalizable : (forall e, made e -> finalizable e) /\
  forall dec equal_fold big j es, UnmarshalJSON dec equal_fold big j = Events es -> Forall finalizable es.
Proof.
  split; [intros e M now; destruct M; eexists; reflexivity|].
  intros dec ef big j es U. eapply Forall_impl; [|eapply C69_again, U]. intros e F now. exists e. apply F.
Qed.
Print Assumptions C70_finalizable.

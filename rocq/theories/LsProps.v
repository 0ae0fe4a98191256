(* C44 (broadcasters) and C51 (registry of queues). *)
From Coq Require Import List Bool Arith Lia Permutation.
From Verif Require Import LsModel.
Import ListNotations.
Local Open Scope list_scope.

(* ---- Specification: what is read off a history ---- *)
Section Spec.
Context {L E : Type} (L_dec : forall a b : L, {a = b} + {a <> b}).
(* the events whose posting has returned, in that order *)
Definition posted : list (seen L E) -> list E := flat_map (fun x => match x with Posted e => [e] | _ => [] end).
(* the listeners somebody has called AddListener with *)
Definition adds : list (seen L E) -> list L := flat_map (fun x => match x with Adds l => [l] | _ => [] end).
(* what listener l has received, in order *)
Definition delivered (l : L) : list (seen L E) -> list E := flat_map (fun x => match x with Delivers k e => if L_dec k l then [e] else [] | _ => [] end).
(* the events somebody has called PostProcess with *)
Definition posts : list (seen L E) -> list E := flat_map (fun x => match x with Posts e => [e] | _ => [] end).
(* the listeners that have been closed, in order *)
Definition closes : list (seen L E) -> list L := flat_map (fun x => match x with Closes l => [l] | _ => [] end).
(* Close is called at most once, when every posting has returned, and nothing is
   posted afterwards. *)
Definition closed_properly (h : list (seen L E)) : Prop := forall h1 h2, h = h1 ++ CloseCalled :: h2 ->
  length (posts h1) = length (posted h1) /\ (forall e, ~ In (Posts e) h2) /\ ~ In CloseCalled h2.
End Spec.

(* ---- Proofs ---- *)
Definition opt {A} (o : option A) : list A := match o with Some x => [x] | None => [] end.
Lemma snoc_split {A} (tr e tr1 : list A) (x : A) (tr2 : list A) : tr ++ e = tr1 ++ x :: tr2 ->
  (exists tr2', tr = tr1 ++ x :: tr2') \/ (exists e1, tr1 = tr ++ e1 /\ e = e1 ++ x :: tr2).
Proof.
  intros H. apply app_eq_app in H. destruct H as (l & [[-> H]|[-> ->]]); [|right; eauto].
  destruct l as [|y l]; cbn in H; [right; exists []; rewrite !app_nil_r; auto|]. injection H as <- ->. left. eauto.
Qed.
Lemma NoDup_app_l {A} (a b : list A) : NoDup (a ++ b) -> NoDup a.
Proof. induction a as [|x a IH]; intros H; [constructor|]. inversion H as [|? ? H1 H2]. constructor; [|auto]. intros I. apply H1. apply in_app_iff. auto. Qed.
Lemma NoDup_app_remove_l {A} (a b : list A) : NoDup (a ++ b) -> NoDup b.
Proof. induction a as [|x a IH]; intros H; [auto|]. inversion H. auto. Qed.
Section P.
Context {L E : Type} (L_dec : forall a b : L, {a = b} + {a <> b}).
Notation state := (state L E). Notation seen := (seen L E).
Implicit Types (tr : list seen) (s : state).
Notation delivered := (delivered L_dec).

Lemma posted_app a b : posted (a ++ b : list seen) = posted a ++ posted b. Proof. apply flat_map_app. Qed.
Lemma adds_app a b : adds (a ++ b : list seen) = adds a ++ adds b. Proof. apply flat_map_app. Qed.
Lemma closes_app a b : closes (a ++ b : list seen) = closes a ++ closes b. Proof. apply flat_map_app. Qed.
Lemma delivered_app l a b : delivered l (a ++ b : list seen) = delivered l a ++ delivered l b. Proof. apply flat_map_app. Qed.
Lemma in_closes l tr : In l (closes tr) <-> In (Closes l) tr.
Proof.
  unfold closes. rewrite in_flat_map. split.
  - intros (x & X & Y). destruct x; try (elim Y; fail). destruct Y as [->|[]]. auto.
  - intros H. exists (Closes l). split; [auto|left; auto].
Qed.

Record inv (idx : L -> nat) tr s : Prop := {
  i_perm : Permutation (adds tr) (adding s ++ opt (lbuf s) ++ listeners s);
  i_ack : incl (acked s) (listeners s);
  i_added : forall l tr1 tr2, tr = tr1 ++ Added l :: tr2 -> In l (listeners s) /\ idx l <= length (posted tr1);
  i_new : forall l, ~ In l (listeners s) -> delivered l tr = [];
  i_dl : exists t, posted tr = t ++ opt (ebuf s) /\
    match at_ s with
    | Delivering e todo => exists t0 a, t = t0 ++ [e] /\ listeners s = a ++ todo /\
        forall l, (In l a -> idx l <= length t0 /\ delivered l tr = skipn (idx l) t) /\ (In l todo -> idx l <= length t0 /\ delivered l tr = skipn (idx l) t0)
    | _ => forall l, In l (listeners s) -> idx l <= length t /\ delivered l tr = skipn (idx l) t
    end;
  i_cl : match at_ s with
    | Closing todo => (exists a, listeners s = a ++ todo /\ lclosed s = rev a) /\ eclosed s = true /\ ebuf s = None
    | Done => lclosed s = rev (listeners s) /\ eclosed s = true /\ ebuf s = None
    | _ => lclosed s = []
    end;
  i_closes : closes tr = rev (lclosed s)
}.
Lemma inv0 : inv (fun _ => 0) [] start.
Proof.
  constructor; cbn; auto.
  - intros x [].
  - intros l tr1 tr2 H. destruct tr1; discriminate.
  - exists []. split; [auto|]. intros l [].
Qed.
(* A step that only adds events which none of the readings sees, and changes nothing
   they depend on. *)
Lemma skipn_app_le {A} n (a b : list A) : n <= length a -> skipn n (a ++ b) = skipn n a ++ b.
Proof. intros H. rewrite skipn_app. replace (n - length a) with 0 by lia. reflexivity. Qed.
Lemma added_old idx tr s e (I : forall l tr1 tr2, tr = tr1 ++ Added l :: tr2 -> In l (listeners s) /\ idx l <= length (posted tr1)) :
  (forall l, ~ In (Added l) e) -> forall l tr1 tr2, tr ++ e = tr1 ++ Added l :: tr2 -> In l (listeners s) /\ idx l <= length (posted tr1).
Proof.
  intros N l tr1 tr2 H. apply snoc_split in H. destruct H as [(t & H)|(e1 & _ & H)]; [eauto|]. elim (N l). rewrite H. apply in_app_iff. right. left. auto.
Qed.
Ltac deliv := match goal with |- context [delivered _ (?tr ++ ?e)] => let DE := fresh in assert (DE : forall k, delivered k (tr ++ e) = delivered k tr) by (intros; rewrite delivered_app; apply app_nil_r) end;
  match goal with |- context [at_ ?s] => destruct (at_ s) | _ => idtac end; match goal with DE : forall k, delivered k _ = _ |- _ => setoid_rewrite DE end; auto.
Ltac noadded := let X := fresh in intros ? X; cbn in X; intuition discriminate.
Lemma step_inv idx tr s e s' : NoDup (adds (tr ++ e)) -> call s e s' \/ work s e s' -> inv idx tr s -> exists idx', inv idx' (tr ++ e) s'.
Proof.
  intros ND [H|H] [P K A N D C X].
  - (* calls change nothing that matters *)
    exists idx. destruct H as [s e|s l|s EC|s EC]; constructor; cbn [set_posts set_adds set_closed crash posting ebuf eclosed adding lbuf acked listeners at_ lclosed crashed] in *;
      rewrite ?posted_app, ?adds_app, ?closes_app; cbn [posted adds closes flat_map app]; rewrite ?app_nil_r; auto;
      try (eapply added_old; [eassumption|noadded]); try (intros k NK; rewrite delivered_app, N by auto; reflexivity).
    + destruct D as (t & D1 & D2). exists t. split; [auto|]. deliv.
    + rewrite Permutation_app_comm. cbn. apply perm_skip. auto.
    + destruct D as (t & D1 & D2). exists t. split; [auto|]. deliv.
    + destruct D as (t & D1 & D2). exists t. split; [auto|]. deliv.
    + destruct (at_ s); auto; destruct C as (C1 & C2 & C3); auto.
    + destruct D as (t & D1 & D2). exists t. split; [auto|]. deliv.
  - destruct H as [s a e b EP EC EB|s e EP EC|s a l b EA EL|s a l b EK|s l EA EL|s e EA EB|s e l t EA|s e EA|s EA EC EB|s l t EA NI|s l t EA NI|s EA].
    + (* post_send *) exists idx. constructor; cbn [set_posts posting ebuf eclosed adding lbuf acked listeners at_ lclosed crashed] in *;
        rewrite ?posted_app, ?adds_app, ?closes_app; cbn [posted adds closes flat_map app]; rewrite ?app_nil_r; auto;
        try (eapply added_old; [eassumption|noadded]); try (intros k NK; rewrite delivered_app, N by auto; reflexivity).
      * rewrite EB in D. cbn [opt] in *. destruct D as (t & D1 & D2). exists t. rewrite app_nil_r in D1. split; [rewrite D1; auto|]. deliv.
      * destruct (at_ s); auto; destruct C as (C1 & C2 & C3); congruence.
    + (* post_panics *) exists idx. constructor; cbn [crash posting ebuf eclosed adding lbuf acked listeners at_ lclosed crashed] in *;
        rewrite ?posted_app, ?adds_app, ?closes_app; cbn [posted adds closes flat_map app]; rewrite ?app_nil_r; auto;
        try (eapply added_old; [eassumption|noadded]); try (intros k NK; rewrite delivered_app, N by auto; reflexivity).
      destruct D as (t & D1 & D2). exists t. split; [auto|]. deliv.
    + (* add_send *) exists idx. rewrite app_nil_r in *. constructor; cbn [set_adds posting ebuf eclosed adding lbuf acked listeners at_ lclosed crashed] in *; auto.
      rewrite P, EA, EL. cbn [opt app]. rewrite <- !app_assoc. apply Permutation_app_head. cbn. apply Permutation_middle.
    + (* add_returns *) exists idx.
      assert (IL : In l (listeners s)) by (apply K; rewrite EK; apply in_app_iff; right; left; auto).
      constructor; cbn [set_adds posting ebuf eclosed adding lbuf acked listeners at_ lclosed crashed] in *;
        rewrite ?posted_app, ?adds_app, ?closes_app; cbn [posted adds closes flat_map app]; rewrite ?app_nil_r; auto;
        try (intros k NK; rewrite delivered_app, N by auto; reflexivity).
      * intros x I. apply K. rewrite EK. apply in_app_iff. apply in_app_iff in I. cbn. tauto.
      * intros k tr1 tr2 H. apply snoc_split in H. destruct H as [(u & H)|(e1 & E1 & H)]; [eauto|]. destruct e1 as [|y e1]; [|destruct e1; discriminate]. injection H as <- <-. split; [auto|]. subst tr1. rewrite app_nil_r.
        destruct D as (t & D1 & D2). rewrite D1, app_length. destruct (at_ s) as [|e todo|todo|]; try (destruct (D2 l IL); lia).
        destruct D2 as (t0 & a0 & D2 & D3 & D4). rewrite D3 in IL. apply in_app_iff in IL. subst t. rewrite app_length. destruct IL as [IL|IL]; apply D4 in IL; lia.
      * destruct D as (t & D1 & D2). exists t. split; [auto|]. deliv.
    + (* run_registers *) rewrite app_nil_r in *. rewrite EL in *. cbn [opt] in *. rewrite EA in *. destruct D as (t & D1 & D2).
      assert (NL : ~ In l (listeners s)). { rewrite P in ND. apply NoDup_app_remove_l in ND. cbn in ND. inversion ND. auto. }
      exists (fun k => if L_dec l k then length t else idx k). constructor; cbn [set_adds posting ebuf eclosed adding lbuf acked listeners at_ lclosed crashed opt app] in *; rewrite ?EA; auto.
      * rewrite P. apply Permutation_app_head. change (l :: listeners s) with ([l] ++ listeners s). apply Permutation_app_comm.
      * intros x [->|I]; apply in_app_iff; [right; left; auto|left; auto].
      * intros k tr1 tr2 H. destruct (A _ _ _ H) as [A1 A2]. split; [apply in_app_iff; auto|]. destruct (L_dec l k); [congruence|auto].
      * intros k NK. apply N. intros I. apply NK. apply in_app_iff. auto.
      * exists t. split; [auto|]. intros k I. apply in_app_iff in I. destruct (L_dec l k) as [<-|NE].
        -- split; [auto|]. rewrite skipn_all. apply N. auto.
        -- apply D2. destruct I as [I|[I|[]]]; [auto|congruence].
    + (* run_takes *) exists idx. rewrite app_nil_r in *. rewrite EA, EB in *. cbn [opt] in *. constructor; cbn [set_at posting ebuf eclosed adding lbuf acked listeners at_ lclosed crashed opt app] in *; auto.
      destruct D as (t & D1 & D2). exists (t ++ [e]). split; [rewrite app_nil_r; auto|]. exists t, []. split; [auto|split; [auto|]]. intros k. split; [intros []|]. intros I. destruct (D2 _ I). auto.
    + (* run_delivers *) exists idx. rewrite EA in *. constructor; cbn [set_at posting ebuf eclosed adding lbuf acked listeners at_ lclosed crashed opt app] in *;
        rewrite ?posted_app, ?adds_app, ?closes_app; cbn [posted adds closes flat_map app]; rewrite ?app_nil_r; auto;
        try (eapply added_old; [eassumption|noadded]).
      * intros k NK. rewrite delivered_app, N by auto. cbn. destruct (L_dec l k) as [<-|]; [|auto]. destruct D as (u & _ & u0 & a & _ & D3 & _). elim NK. rewrite D3. apply in_app_iff. right. left. auto.
      * destruct D as (u & D1 & u0 & a & D2 & D3 & D4). exists u. split; [auto|]. exists u0, (a ++ [l]). split; [auto|split; [rewrite <- app_assoc; auto|]].
        assert (NDL : NoDup (a ++ l :: t)). { rewrite <- D3. rewrite adds_app in ND. cbn in ND. rewrite app_nil_r in ND. rewrite P in ND. apply NoDup_app_remove_l in ND. apply NoDup_app_remove_l in ND. auto. }
        apply NoDup_remove_2 in NDL. rewrite in_app_iff in NDL.
        intros k. rewrite in_app_iff. destruct (D4 k) as [D5 D6]. split.
        -- intros I. rewrite delivered_app. cbn. destruct (L_dec l k) as [<-|NE]; rewrite ?app_nil_r.
           ++ destruct D6 as [D6 D7]; [left; auto|]. split; [auto|]. rewrite D7, D2, skipn_app_le by auto. auto.
           ++ apply D5. destruct I as [I|[I|[]]]; [auto|congruence].
        -- intros I. rewrite delivered_app. cbn. destruct (L_dec l k) as [<-|NE]; [tauto|]. rewrite app_nil_r. apply D6. right. auto.
    + (* run_delivered *) exists idx. rewrite app_nil_r in *. rewrite EA in *. constructor; cbn [set_at posting ebuf eclosed adding lbuf acked listeners at_ lclosed crashed opt app] in *; auto.
      destruct D as (u & D1 & u0 & a & D2 & D3 & D4). exists u. split; [auto|]. rewrite app_nil_r in D3. intros k I. rewrite D3 in I. apply D4 in I. destruct I as [I1 I2]. split; [|auto]. rewrite D2, app_length. lia.
    + (* run_closing *) exists idx. rewrite app_nil_r in *. rewrite EA, EB in *. constructor; cbn [set_at posting ebuf eclosed adding lbuf acked listeners at_ lclosed crashed opt app] in *; auto.
      split; [|auto]. exists []. auto.
    + (* run_closes *) exists idx. rewrite EA in *. destruct C as ((a & C1 & C2) & C3 & C4). constructor; cbn [set_at posting ebuf eclosed adding lbuf acked listeners at_ lclosed crashed opt app] in *;
        rewrite ?posted_app, ?adds_app, ?closes_app; cbn [posted adds closes flat_map app]; rewrite ?app_nil_r; auto;
        try (eapply added_old; [eassumption|noadded]); try (intros k NK; rewrite delivered_app, N by auto; reflexivity).
      * destruct D as (u & D1 & D2). exists u. split; [auto|]. deliv.
      * split; [|auto]. exists (a ++ [l]). rewrite <- app_assoc. split; [auto|]. rewrite C2, rev_app_distr. auto.
      * cbn. rewrite X. auto.
    + (* run_closes_again *) exists idx. constructor; cbn [crash posting ebuf eclosed adding lbuf acked listeners at_ lclosed crashed] in *;
        rewrite ?posted_app, ?adds_app, ?closes_app; cbn [posted adds closes flat_map app]; rewrite ?app_nil_r; auto;
        try (eapply added_old; [eassumption|noadded]); try (intros k NK; rewrite delivered_app, N by auto; reflexivity).
      destruct D as (u & D1 & D2). exists u. split; [auto|]. deliv.
    + (* run_returns *) exists idx. rewrite app_nil_r in *. rewrite EA in *. destruct C as ((a & C1 & C2) & C3 & C4). rewrite app_nil_r in C1. constructor; cbn [set_at posting ebuf eclosed adding lbuf acked listeners at_ lclosed crashed opt app] in *; auto.
      rewrite C1. auto.
Qed.
Lemma steps_inv tr s : steps start tr s -> NoDup (adds tr) -> exists idx, inv idx tr s.
Proof.
  intros H. remember start as s0. induction H as [s|s es s1 e s2 HS IH NC H]; intros ND; subst; [exists (fun _ => 0); apply inv0|].
  assert (ND1 := ND). rewrite adds_app in ND1. apply NoDup_app_l in ND1. destruct (IH eq_refl ND1) as [idx I]. eapply step_inv; eauto.
Qed.

Lemma inv_nodup idx tr s : inv idx tr s -> NoDup (adds tr) -> NoDup (listeners s).
Proof. intros I ND. rewrite (i_perm _ _ _ I) in ND. apply NoDup_app_remove_l, NoDup_app_remove_l in ND. auto. Qed.
Lemma posts_app a b : posts (a ++ b : list seen) = posts a ++ posts b. Proof. apply flat_map_app. Qed.
Lemma proper_prefix (a b : list seen) : closed_properly (a ++ b) -> closed_properly a.
Proof.
  intros H h1 h2 ->. destruct (H h1 (h2 ++ b)) as (A & B & C); [rewrite <- app_assoc; auto|]. split; [auto|split].
  - intros e I. apply (B e). apply in_app_iff. auto.
  - intros I. apply C. apply in_app_iff. auto.
Qed.
Lemma no_panic tr s : steps start tr s -> NoDup (adds tr) -> closed_properly tr ->
  crashed s = false /\ ~ In Panics tr /\ length (posts tr) = length (posted tr) + length (posting s) /\ (eclosed s = true -> posting s = [] /\ In CloseCalled tr).
Proof.
  intros H. remember start as s0. induction H as [s|s es s1 e s2 HS IH NC H]; intros ND CP; subst; [cbn; repeat split; auto; discriminate|].
  assert (ND1 := ND). rewrite adds_app in ND1. apply NoDup_app_l in ND1. destruct (IH eq_refl ND1 (proper_prefix _ _ CP)) as (I1 & I2 & I3 & I4). clear IH.
  destruct (steps_inv _ _ HS ND1) as [idx I]. assert (NL := inv_nodup _ _ _ I ND1).
  rewrite posts_app, posted_app, !app_length, in_app_iff.
  destruct H as [H|H].
  - destruct H as [s e|s l|s EC|s EC]; cbn [set_posts set_adds set_closed crash posting ebuf eclosed crashed posts posted flat_map app length] in *.
    + split; [auto|split; [intros [X|[X|[]]]; [auto|discriminate]|split; [lia|]]]. intros C. destruct (I4 C) as [_ X]. apply in_split in X. destruct X as (h1 & h2 & ->).
      destruct (CP h1 (h2 ++ [Posts e])) as (_ & B & _); [rewrite <- app_assoc; auto|]. elim (B e). apply in_app_iff. right. left. auto.
    + split; [auto|split; [intros [X|[X|[]]]; [auto|discriminate]|split; [lia|]]]. intros C. rewrite in_app_iff. destruct (I4 C). auto.
    + split; [auto|split; [intros [X|[X|[]]]; [auto|discriminate]|split; [lia|]]]. intros _. rewrite in_app_iff. split; [|right; left; auto].
      destruct (CP es []) as (A & _ & _); [auto|]. destruct (posting s); [auto|]. cbn [length] in I3. lia.
    + exfalso. destruct (I4 EC) as [_ X]. apply in_split in X. destruct X as (h1 & h2 & ->).
      destruct (CP h1 (h2 ++ [CloseCalled; Panics])) as (_ & _ & B); [rewrite <- app_assoc; auto|]. elim B. apply in_app_iff. right. left. auto.
  - destruct H as [s a e b EP EC EB|s e EP EC|s a l b EA EL|s a l b EK|s l EA EL|s e EA EB|s e l t EA|s e EA|s EA EC EB|s l t EA NI|s l t EA NI|s EA];
      cbn [set_posts set_adds set_at crash posting ebuf eclosed crashed posts posted flat_map app length In] in *; rewrite ?in_app_iff; cbn [In].
    all: try (split; [auto|split; [intros [X|X]; [auto|intuition discriminate]|split; [lia|tauto]]]; fail).
    + split; [auto|split; [intros [X|[X|[]]]; [auto|discriminate]|split; [|congruence]]]. rewrite EP in I3. rewrite !app_length in *. cbn [length] in I3. lia.
    + destruct (I4 EC) as [X _]. rewrite X in EP. elim EP.
    + exfalso. assert (X := i_cl _ _ _ I). rewrite EA in X. destruct X as ((a & X1 & X2) & _). rewrite X2 in NI. apply in_rev in NI. rewrite X1 in NL. apply NoDup_remove_2 in NL. apply NL. apply in_app_iff. auto.
Qed.
Lemma rest_after tr s idx : inv idx tr s -> (forall e s', ~ work s e s') -> ebuf s = None /\ (at_ s = Select \/ at_ s = Done).
Proof.
  intros I H. assert (C := i_cl _ _ _ I). destruct (at_ s) as [|e todo|todo|] eqn:EA.
  - split; [|auto]. destruct (ebuf s) eqn:EB; [|auto]. elim (H [] (set_at s None (Delivering e (listeners s)) (lclosed s))). apply run_takes; auto.
  - exfalso. destruct todo as [|l t]; eapply H; [eapply run_delivered|eapply run_delivers]; eauto.
  - exfalso. destruct todo as [|l t]; [eapply H; apply run_returns; auto|]. destruct (in_dec L_dec l (lclosed s)); eapply H; [eapply run_closes_again|eapply run_closes]; eauto.
  - destruct C as (_ & _ & C). auto.
Qed.
Lemma delivery tr s : steps start tr s -> NoDup (adds tr) -> forall l, exists k,
  (forall tr1 tr2, tr = tr1 ++ Added l :: tr2 -> k <= length (posted tr1)) /\
  (exists rest, skipn k (posted tr) = delivered l tr ++ rest) /\
  (In (Closes l) tr \/ (In (Added l) tr /\ forall e s', ~ work s e s') -> delivered l tr = skipn k (posted tr)).
Proof.
  intros H ND l. destruct (steps_inv _ _ H ND) as [idx I]. exists (idx l). split; [|split].
  - intros tr1 tr2 HT. apply (i_added _ _ _ I _ _ _ HT).
  - destruct (in_dec L_dec l (listeners s)) as [IL|NL]; [|rewrite (i_new _ _ _ I l NL); cbn; eauto].
    destruct (i_dl _ _ _ I) as (t & D1 & D2). rewrite D1. destruct (at_ s) as [|e todo|todo|]; try (destruct (D2 l IL) as [D3 D4]; rewrite skipn_app_le, D4 by auto; eauto).
    destruct D2 as (t0 & a & -> & D3 & D4). rewrite D3 in IL. apply in_app_iff in IL. destruct IL as [IL|IL]; apply D4 in IL; destruct IL as [L1 ->].
    + rewrite skipn_app_le by (rewrite app_length; lia). eauto.
    + rewrite <- app_assoc, skipn_app_le by auto. eauto.
  - intros HC. assert (X : In l (listeners s) /\ ebuf s = None /\ forall e t, at_ s <> Delivering e t).
    { destruct HC as [HC|[HC HR]].
      - apply in_closes in HC. rewrite (i_closes _ _ _ I) in HC. apply in_rev in HC. assert (C := i_cl _ _ _ I). destruct (at_ s) as [|e todo|todo|]; try (rewrite C in HC; elim HC).
        + destruct C as ((a & C1 & C2) & _ & C3). rewrite C2 in HC. apply in_rev in HC. split; [rewrite C1; apply in_app_iff; auto|split; [auto|discriminate]].
        + destruct C as (C1 & _ & C3). rewrite C1 in HC. apply in_rev in HC. split; [auto|split; [auto|discriminate]].
      - apply in_split in HC. destruct HC as (tr1 & tr2 & HC). split; [apply (i_added _ _ _ I _ _ _ HC)|]. destruct (rest_after _ _ _ I HR) as [R1 [R2|R2]]; (split; [auto|rewrite R2; discriminate]). }
    destruct X as (IL & EB & NDl). destruct (i_dl _ _ _ I) as (t & D1 & D2). rewrite D1, EB, app_nil_r. destruct (at_ s) as [|e todo|todo|]; try (destruct (D2 l IL); auto; fail). elim (NDl e todo). auto.
Qed.
Lemma after_close tr s : steps start tr s -> NoDup (adds tr) -> forall l tr1 tr2, tr = tr1 ++ Closes l :: tr2 -> ~ In (Closes l) tr2 /\ forall e, ~ In (Delivers l e) tr2.
Proof.
  intros H. remember start as s0. induction H as [s|s es s1 e s2 HS IH NC H]; intros ND l tr1 tr2 HT; subst; [destruct tr1; discriminate|].
  assert (ND1 := ND). rewrite adds_app in ND1. apply NoDup_app_l in ND1. destruct (steps_inv _ _ HS ND1) as [idx I].
  assert (HT0 := HT). apply snoc_split in HT. destruct HT as [(t & HT)|(e1 & HT & HE)].
  - assert (tr2 = t ++ e). { rewrite HT, <- app_assoc in HT0. apply app_inv_head in HT0. cbn in HT0. injection HT0 as <-. auto. } subst tr2. clear HT0.
    destruct (IH eq_refl ND1 _ _ _ HT) as [A B]. assert (CL : In l (lclosed s1)). { apply in_rev. rewrite <- (i_closes _ _ _ I). apply in_closes. rewrite HT. apply in_app_iff. right. left. auto. }
    assert (C := i_cl _ _ _ I). split.
    + rewrite in_app_iff. intros [X|X]; [auto|]. destruct H as [H|H]; destruct H; cbn in X; repeat (destruct X as [X|X]; [try discriminate|]); try (elim X; fail). injection X as ->. contradiction.
    + intros ev. rewrite in_app_iff. intros [X|X]; [eapply B; eauto|]. destruct H as [H|H]; destruct H; cbn in X; repeat (destruct X as [X|X]; [try discriminate|]); try (elim X; fail).
      match goal with EA : at_ _ = Delivering _ _ |- _ => rewrite EA in C; rewrite C in CL; elim CL end.
  - assert (tr2 = []). { destruct H as [H|H]; destruct H; destruct e1 as [|y [|y2 [|]]]; try discriminate; cbn in HE; congruence. }
    subst tr2. cbn. auto.
Qed.
End P.

(* ---- C44 ---- *)
(* Every listener gets, once each and in the order of posting, all events posted from
   some moment on, which is not later than the return of its AddListener; everything,
   when it is closed, or when nothing more happens. *)
Theorem C44_delivery : forall (L E : Type) (L_dec : forall a b : L, {a = b} + {a <> b}) (h : list (seen L E)) s,
  steps start h s -> NoDup (adds h) -> forall l, exists k,
  (forall h1 h2, h = h1 ++ Added l :: h2 -> k <= length (posted h1)) /\
  (exists rest, skipn k (posted h) = delivered L_dec l h ++ rest) /\
  (In (Closes l) h \/ (In (Added l) h /\ forall e s', ~ work s e s') -> delivered L_dec l h = skipn k (posted h)).
Proof. exact @delivery. Qed.
Print Assumptions C44_delivery.

(* Nothing is delivered to a listener that has been closed, and none is closed twice;
   when the broadcaster has finished, all are closed. *)
Theorem C44_closed : forall (L E : Type) (L_dec : forall a b : L, {a = b} + {a <> b}) (h : list (seen L E)) s,
  steps start h s -> NoDup (adds h) ->
  (forall l h1 h2, h = h1 ++ Closes l :: h2 -> ~ In (Closes l) h2 /\ forall e, ~ In (Delivers l e) h2) /\
  (In CloseCalled h -> (forall e s', ~ work s e s') -> crashed s = false -> forall l, In (Added l) h -> In (Closes l) h).
Proof.
  intros L E L_dec h s H ND. split; [eapply after_close; eauto|]. intros HC HR NCr l HA. destruct (steps_inv L_dec _ _ H ND) as [idx I].
  assert (EC : eclosed s = true).
  { clear - H HC. remember start as s0. induction H as [s|s es s1 e s2 HS IH NC H]; subst; [elim HC|]. apply in_app_iff in HC.
    assert (X : eclosed s1 = true \/ In CloseCalled e) by tauto. clear IH HC. destruct H as [H|H]; destruct H; cbn in *; auto; destruct X as [X|X]; auto; repeat (destruct X as [X|X]; [try discriminate|]); try (elim X; fail); auto. }
  destruct (rest_after L_dec _ _ _ I HR) as [R1 [R2|R2]].
  - elim (HR [] (set_at s None (Closing (listeners s)) (lclosed s))). apply run_closing; auto.
  - apply in_closes. rewrite (i_closes _ _ _ _ I). assert (C := i_cl _ _ _ _ I). rewrite R2 in C. destruct C as [C _]. rewrite C, rev_involutive.
    apply in_split in HA. destruct HA as (h1 & h2 & HA). apply (i_added _ _ _ _ I _ _ _ HA).
Qed.
Print Assumptions C44_closed.

(* If Close is called once, after all postings have returned, and nobody posts after
   that, nobody panics. *)
Theorem C44_no_panic : forall (L E : Type) (L_dec : forall a b : L, {a = b} + {a <> b}) (h : list (seen L E)) s,
  steps start h s -> NoDup (adds h) -> closed_properly h -> ~ In Panics h.
Proof. intros L E L_dec h s H ND CP. apply (no_panic L_dec _ _ H ND CP). Qed.
Print Assumptions C44_no_panic.

(* All calls return, if the listeners take what they are sent: without new calls only
   finitely many steps are possible, and before Close nothing else stops them. *)
Definition size {L E} (s : state L E) : nat :=
  let n := length (listeners s) + length (opt (lbuf s)) + length (adding s) in
  length (posting s) * (n + 3) + length (opt (ebuf s)) * (n + 2) +
  match at_ s with Select => n + 2 | Delivering _ t => length t + 1 + (n + 2) | Closing t => length t + 1 | Done => 0 end +
  length (adding s) * 3 + length (opt (lbuf s)) * 2 + length (acked s) + if crashed s then 0 else 1.
Theorem C44_returns : forall (L E : Type) (L_dec : forall a b : L, {a = b} + {a <> b}),
  well_founded (fun s' s : state L E => crashed s = false /\ exists e, work s e s') /\
  forall (h : list (seen L E)) s, steps start h s -> (forall e s', ~ work s e s') -> ~ In CloseCalled h ->
    length (posted h) = length (posts h) /\ forall l, In (Adds l) h -> In (Added l) h.
Proof.
  intros L E L_dec. split.
  - apply well_founded_lt_compat with (f := size). intros s' s [NC [e H]]. unfold size.
    destruct H as [s a e b EP EC EB|s e EP EC|s a l b EA EL|s a l b EK|s l EA EL|s e EA EB|s e l t EA|s e EA|s EA EC EB|s l t EA NI|s l t EA NI|s EA];
      cbn [set_posts set_adds set_at crash posting ebuf adding lbuf acked listeners at_ crashed]; repeat match goal with X : _ s = _ |- _ => rewrite X; clear X end;
      rewrite ?app_length; cbn [length opt app]; try nia; destruct (at_ s); nia.
  - intros h s H HR NC.
    assert (X : eclosed s = false /\ length (posts h) = length (posted h) + length (posting s) /\ at_ s <> Done /\ (forall t, at_ s <> Closing t) /\ (forall l, In (Adds l) h -> In l (adding s) \/ lbuf s = Some l \/ In l (acked s) \/ In (Added l) h)).
    { clear HR. remember start as s0. induction H as [s|s es s1 e s2 HS IH NCr H]; subst; [cbn; repeat split; auto; try discriminate; intros l []|].
      rewrite in_app_iff in NC. destruct IH as (I1 & I2 & I3 & I4 & I5); [auto|tauto|]. assert (NC' : ~ In CloseCalled e) by tauto. rewrite posts_app, posted_app, !app_length.
      assert (I6 : forall l, In (Adds l) (es ++ e) -> (In l (adding s1) \/ lbuf s1 = Some l \/ In l (acked s1) \/ In (Added l) (es ++ e)) \/ In (Adds l) e). { intros l X. apply in_app_iff in X. rewrite in_app_iff. destruct X as [X|X]; [|auto]. apply I5 in X. tauto. }
      destruct H as [H|H].
      - destruct H as [s e|s l|s EC|s EC]; cbn in NC'; try tauto; cbn [set_posts set_adds posting ebuf eclosed adding lbuf acked at_ crashed posts posted flat_map app length] in *.
        + split; [auto|split; [lia|split; [auto|split; [auto|]]]]. intros l X. destruct (I6 l X) as [Y|[Y|[]]]; [tauto|discriminate].
        + split; [auto|split; [lia|split; [auto|split; [auto|]]]]. intros k X. destruct (I6 k X) as [Y|[Y|[]]]; [cbn; tauto|]. injection Y as ->. cbn. auto.
      - destruct H as [s a e b EP EC EB|s e EP EC|s a l b EA EL|s a l b EK|s l EA EL|s e EA EB|s e l t EA|s e EA|s EA EC EB|s l t EA NI|s l t EA NI|s EA];
          cbn [set_posts set_adds set_at crash posting ebuf eclosed adding lbuf acked at_ crashed posts posted flat_map app length] in *; try congruence; try (elim (I4 _ EA); fail).
        + split; [auto|split; [rewrite EP in I2; rewrite !app_length in *; cbn [length] in *; lia|split; [auto|split; [auto|]]]]. intros k X. destruct (I6 k X) as [Y|[Y|[]]]; [tauto|discriminate].
        + split; [auto|split; [lia|split; [auto|split; [auto|]]]]. intros k X. destruct (I6 k X) as [Y|[]]. rewrite EA in Y. rewrite in_app_iff in Y |- *. rewrite EL in Y. cbn in Y. destruct Y as [[Y|[Y|Y]]|[Y|Y]]; try discriminate; try tauto. subst. auto.
        + split; [auto|split; [lia|split; [auto|split; [auto|]]]]. intros k X. destruct (I6 k X) as [Y|[Y|[]]]; [|discriminate]. rewrite EK in Y. rewrite !in_app_iff in *. cbn in *. destruct Y as [Y|[Y|[[Y|[Y|Y]]|Y]]]; subst; tauto.
        + split; [auto|split; [lia|split; [rewrite EA; discriminate|split; [rewrite EA; discriminate|]]]]. intros k X. destruct (I6 k X) as [Y|[]]. rewrite EL in Y. cbn. destruct Y as [Y|[Y|Y]]; [auto| |tauto]. injection Y as ->. auto.
        + split; [auto|split; [lia|split; [discriminate|split; [discriminate|]]]]. intros k X. destruct (I6 k X) as [Y|[]]. auto.
        + split; [auto|split; [lia|split; [discriminate|split; [discriminate|]]]]. intros k X. destruct (I6 k X) as [Y|[Y|[]]]; [auto|discriminate].
        + split; [auto|split; [lia|split; [discriminate|split; [discriminate|]]]]. intros k X. destruct (I6 k X) as [Y|[]]. auto. }
    destruct X as (X1 & X2 & X3 & X4 & X5).
    assert (AT : at_ s = Select). { destruct (at_ s) as [|e [|l t]|t|] eqn:EA; auto; [exfalso; eapply HR; eapply run_delivered; eauto|exfalso; eapply HR; eapply run_delivers; eauto|elim (X4 t); auto|elim X3; auto]. }
    assert (EB : ebuf s = None). { destruct (ebuf s) eqn:EB; [|auto]. exfalso. eapply HR. eapply run_takes; eauto. }
    assert (LB : lbuf s = None). { destruct (lbuf s) eqn:EL; [|auto]. exfalso. eapply HR. eapply run_registers; eauto. }
    assert (PO : posting s = []). { destruct (posting s) eqn:EP; [auto|]. exfalso. eapply HR. eapply (post_send _ _ _ []); eauto. }
    assert (AD : adding s = []). { destruct (adding s) eqn:EP; [auto|]. exfalso. eapply HR. eapply (add_send _ _ _ []); eauto. }
    assert (AK : acked s = []). { destruct (acked s) eqn:EP; [auto|]. exfalso. eapply HR. eapply (add_returns _ _ _ []); eauto. }
    rewrite PO in X2. cbn in X2. split; [lia|]. intros l X. destruct (X5 l X) as [Y|[Y|[Y|Y]]]; [rewrite AD in Y; elim Y|congruence|rewrite AK in Y; elim Y|auto].
Qed.
Print Assumptions C44_returns.

(* AddListener after the end of the broadcaster never returns. *)
Theorem C44_late_listener_refuted : exists (h : list (seen nat nat)) s, steps start h s /\ NoDup (adds h) /\ closed_properly h /\ In (Adds 1) h /\
  forall h' s', steps s h' s' -> ~ In (Added 1) (h ++ h').
Proof.
  exists ((((([] ++ [CloseCalled]) ++ []) ++ []) ++ [Adds 1])). eexists. split; [|split; [|split; [|split; [cbn; auto|]]]].
  - eapply steps_snoc; [|shelve|left; apply call_add]. eapply steps_snoc; [|shelve|right; apply run_returns]. 2: shelve. eapply steps_snoc; [|shelve|right; apply run_closing]. 2-4: shelve.
    eapply steps_snoc; [apply steps_nil|shelve|left; apply call_close]. Unshelve. all: reflexivity.
  - cbn. constructor; [intros []|constructor].
  - cbn. intros h1 h2 X. destruct h1 as [|y h1]; [injection X as <-; cbn; split; [auto|split; [intros e [Y|[]]; discriminate|intros [Y|[]]; discriminate]]|]. destruct h1 as [|z h1]; [discriminate|]. destruct h1; discriminate.
  - intros h' s' H X. apply in_app_iff in X. destruct X as [X|X]; [cbn in X; intuition discriminate|]. revert H X.
    match goal with |- steps ?a _ _ -> _ => set (s0 := a) end. intros H X.
    assert (Y : at_ s' = Done /\ acked s' = [] /\ ~ In (Added 1) h'); [|tauto]. clear X. remember s0 as s1. induction H as [s|s es s1 e s2 HS IH NCr H]; subst; [cbn; auto|].
    destruct IH as (I1 & I2 & I3); [auto|]. rewrite in_app_iff. destruct H as [H|H]; destruct H; cbn in *; try congruence; (split; [auto|split; [auto|]]); try (intuition discriminate).
    all: rewrite I2 in H; destruct a; discriminate.
Qed.
Print Assumptions C44_late_listener_refuted.

(* A case: a listener that comes between two events gets the second one. *)
Lemma snoc_call {L E} (s s1 s2 : state L E) es e : steps s es s1 -> call s1 e s2 -> crashed s1 = false -> steps s (es ++ e) s2.
Proof. intros. eapply steps_snoc; eauto. Qed.
Lemma snoc_work {L E} (s s1 s2 : state L E) es e : steps s es s1 -> work s1 e s2 -> crashed s1 = false -> steps s (es ++ e) s2.
Proof. intros. eapply steps_snoc; eauto. Qed.
Ltac fwd H t := match type of H with steps ?s ?es ?s1 => let X := fresh in first
  [ assert (X := snoc_call s s1 _ es _ H ltac:(t) eq_refl) | assert (X := snoc_work s s1 _ es _ H ltac:(t) eq_refl) ]; clear H; cbn in X; rename X into H end.
Example ex_broadcast : exists (h : list (seen nat nat)) s, steps start h s /\ NoDup (adds h) /\ closed_properly h /\
  posted h = [10; 11] /\ delivered Nat.eq_dec 5 h = [11] /\ In (Closes 5) h.
Proof.
  assert (H := steps_nil nat nat start).
  fwd H ltac:(apply (call_post _ _ _ 10)). fwd H ltac:(eapply (post_send _ _ _ []); reflexivity). fwd H ltac:(eapply run_takes; reflexivity). fwd H ltac:(eapply run_delivered; reflexivity).
  fwd H ltac:(apply (call_add _ _ _ 5)). fwd H ltac:(eapply (add_send _ _ _ []); reflexivity). fwd H ltac:(eapply run_registers; reflexivity). fwd H ltac:(eapply (add_returns _ _ _ []); reflexivity).
  fwd H ltac:(apply (call_post _ _ _ 11)). fwd H ltac:(eapply (post_send _ _ _ []); reflexivity). fwd H ltac:(eapply run_takes; reflexivity). fwd H ltac:(eapply run_delivers; reflexivity). fwd H ltac:(eapply run_delivered; reflexivity).
  fwd H ltac:(eapply call_close; reflexivity). fwd H ltac:(eapply run_closing; reflexivity). fwd H ltac:(eapply run_closes; [reflexivity|cbn; tauto]).
  eexists _, _. split; [exact H|]. split; [|split; [|split; [reflexivity|split; [reflexivity|cbn; tauto]]]].
  - cbn. constructor; [intros []|constructor].
  - intros h1 h2 X. cbn in X. do 7 (destruct h1 as [|? h1]; [discriminate X|injection X as <- X]). destruct h1 as [|? h1]; [injection X as <-; cbn; intuition discriminate|].
    injection X as <- X. destruct h1 as [|? h1]; [discriminate X|]. destruct h1; discriminate X.
Qed.

(* ---- C51 ---- *)
(* Get finds what Add put there last and nothing else; the default queue is there
   until it is added again. *)
Fixpoint adds_of {name} (eqb : name -> name -> bool) (m : manager name) (ns : list name) : manager name :=
  match ns with [] => m | n :: ns => adds_of eqb (fst (Add _ eqb m n)) ns end.
Theorem C51_get : forall (name : Type) (eqb : name -> name -> bool), (forall a b, eqb a b = true <-> a = b) -> forall d ns n,
  match Get name (adds_of eqb (defaultQueue _ eqb d) ns) n with
  | Some q => nth_error (d :: ns) q = Some n /\ forall q', q < q' -> nth_error (d :: ns) q' <> Some n
  | None => ~ In n (d :: ns)
  end.
Proof.
  intros name eqb SP d ns n.
  assert (X : forall ns m pre, made _ m = length pre -> (match Get name m n with Some q => nth_error pre q = Some n /\ forall q', q < q' -> nth_error pre q' <> Some n | None => ~ In n pre end) ->
    match Get name (adds_of eqb m ns) n with Some q => nth_error (pre ++ ns) q = Some n /\ forall q', q < q' -> nth_error (pre ++ ns) q' <> Some n | None => ~ In n (pre ++ ns) end).
  { clear ns. induction ns as [|x ns IH]; intros m pre M G; [rewrite app_nil_r; auto|]. cbn [adds_of].
    replace (pre ++ x :: ns) with ((pre ++ [x]) ++ ns) by (rewrite <- app_assoc; auto). apply IH; [cbn; rewrite app_length, M; cbn; lia|].
    unfold Add, Get in *. cbn [fst mapping]. destruct (eqb x n) eqn:EX.
    - apply SP in EX. subst x. rewrite M. split; [rewrite nth_error_app2, Nat.sub_diag by lia; auto|]. intros q' Q. intros Z. assert (q' < length (pre ++ [n])) by (apply nth_error_Some; congruence). rewrite app_length in *. cbn in *. lia.
    - assert (NE : x <> n) by (intros ->; assert (eqb n n = true) by (apply SP; auto); congruence). destruct (mapping _ m n) as [q|].
      + destruct G as [G1 G2]. assert (q < length pre) by (apply nth_error_Some; congruence). split; [rewrite nth_error_app1 by auto; auto|]. intros q' Q Z.
        destruct (Nat.lt_ge_cases q' (length pre)) as [LT|GE]; [rewrite nth_error_app1 in Z by auto; apply (G2 q'); auto|]. rewrite nth_error_app2 in Z by auto. destruct (q' - length pre) as [|k]; cbn in Z; [congruence|destruct k; discriminate].
      + rewrite in_app_iff. cbn. tauto. }
  apply (X ns _ [d]); [auto|]. unfold Get, defaultQueue. cbn [mapping]. destruct (eqb d n) eqn:EX.
  - apply SP in EX. subst. split; [auto|]. intros [|[|q']] Q; try lia; discriminate.
  - cbn. intros [->|[]]. assert (eqb n n = true) by (apply SP; auto). congruence.
Qed.
Print Assumptions C51_get.
(* The documentation says that Add fetches a previously created queue: it does not,
   and the runs of the old one can no longer be reached. *)
Theorem C51_add_refuted : forall (name : Type) (eqb : name -> name -> bool), (forall a b, eqb a b = true <-> a = b) -> forall d ns n,
  let m := adds_of eqb (defaultQueue _ eqb d) ns in
  forall q, Get name m n = Some q -> snd (Add _ eqb m n) <> q /\ Get name (fst (Add _ eqb m n)) n <> Some q.
Proof.
  intros name eqb SP d ns n m q G.
  assert (M : forall ns (m : manager name), (forall x q, mapping _ m x = Some q -> q < made _ m) -> forall x q, mapping _ (adds_of eqb m ns) x = Some q -> q < made _ (adds_of eqb m ns)).
  { clear. induction ns as [|y ns IH]; intros m H; [auto|]. cbn [adds_of]. apply IH. intros x q. cbn. destruct (eqb y x); [intros X; injection X as <-; lia|]. intros X. apply H in X. lia. }
  assert (Q : q < made _ m). { eapply M; [|exact G]. intros x q0. cbn. destruct (eqb d x); [intros X; injection X as <-; lia|discriminate]. }
  cbn. split; [lia|]. unfold Get. cbn. assert (R : eqb n n = true) by (apply SP; auto). rewrite R. intros X. injection X as X. lia.
Qed.
Print Assumptions C51_add_refuted.

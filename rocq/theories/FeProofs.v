(* Invariants of the frontend's requests. *)
From Coq Require Import String Ascii List Bool ZArith Lia.
From Verif Require Import GoStr InModel FeModel FeSpec.
Import ListNotations.
Local Open Scope string_scope.
Local Open Scope list_scope.

(* ---- lists ---- *)
Lemma upd_length {A} (l : list A) i x : length (upd l i x) = length l.
Proof. revert i. induction l as [|y l IH]; intros [|i]; cbn; auto. Qed.
Lemma nth_upd {A} (l : list A) i j x : nth_error (upd l i x) j = if Nat.eqb i j then match nth_error l i with Some _ => Some x | None => None end else nth_error l j.
Proof.
  revert i j. induction l as [|y l IH]; intros i j.
  - cbn. destruct i, j; cbn; try reflexivity; destruct (Nat.eqb _ _); reflexivity.
  - destruct i, j; cbn; try reflexivity. rewrite IH. reflexivity.
Qed.
Lemma nth_snoc {A} (l : list A) x j : nth_error (l ++ [x]) j = if Nat.eqb j (length l) then Some x else nth_error l j.
Proof.
  destruct (Nat.eqb_spec j (length l)) as [->|N].
  - rewrite nth_error_app2, Nat.sub_diag by auto. reflexivity.
  - destruct (Nat.lt_ge_cases j (length l)); [apply nth_error_app1; auto|]. rewrite nth_error_app2 by auto.
    rewrite (proj2 (nth_error_None l j)) by lia. apply nth_error_None. cbn. lia.
Qed.
Lemma created_app a b : created (a ++ b) = created a ++ created b.
Proof. induction a as [|e a IH]; [reflexivity|]. destruct e; cbn; rewrite IH; reflexivity. Qed.
Lemma queued_app i a b : queued_by i (a ++ b) = queued_by i a ++ queued_by i b.
Proof. induction a as [|e a IH]; [reflexivity|]. destruct e; cbn; rewrite ?IH; auto. destruct (Nat.eqb i i0); reflexivity. Qed.
Lemma in_created i g es : In (Creates i g) es -> In g (created es).
Proof. induction es as [|e es IH]; intros []; [subst; cbn; auto|]. destruct e; cbn; auto. Qed.
Lemma created_in g es : In g (created es) -> exists i, In (Creates i g) es.
Proof.
  induction es as [|e es IH]; cbn; [tauto|]. destruct e; cbn; try (intros H; destruct (IH H) as (i' & ?); exists i'; auto).
  intros [->|H]; [exists i; auto|]. destruct (IH H) as (i' & ?); exists i'; auto.
Qed.
Lemma creator_unique i j g es : NoDup (created es) -> In (Creates i g) es -> In (Creates j g) es -> i = j.
Proof.
  induction es as [|e es IH]; [intros _ []|]. intros HN [->|Hi] [Hj|Hj].
  - congruence.
  - cbn in HN. inversion HN; subst. apply in_created in Hj. contradiction.
  - subst. cbn in HN. inversion HN; subst. apply in_created in Hi. contradiction.
  - apply IH; auto. destruct e; cbn in HN; auto. inversion HN; auto.
Qed.
Lemma starts_trans a b c : starts_with a b -> starts_with b c -> starts_with a c.
Proof. intros (x & ->) (y & ->). exists (y ++ x)%string. clear. induction c as [|h c IH]; cbn; [reflexivity|rewrite IH; reflexivity]. Qed.
Lemma starts_refl a : starts_with a a.
Proof. exists ""%string. induction a as [|h c IH]; cbn; [reflexivity|rewrite <- IH; reflexivity]. Qed.

Lemma NoDup_app_snoc_ {A} (l : list A) x : NoDup l -> ~ In x l -> NoDup (l ++ [x]).
Proof.
  induction 1 as [|y l H HN IH]; intros HX; cbn; [repeat constructor; auto|]. constructor.
  - rewrite in_app_iff. cbn in *. intuition.
  - apply IH. cbn in HX. tauto.
Qed.
Section Proofs.
Variable guid_of : Z -> string.
Variable slow : Z -> bool.
Notation step := (step guid_of slow).
Notation steps := (steps guid_of slow).
Notation exec := (exec guid_of slow).

Definition want (r : request) : list Z := match r with NewRun id _ => [id] | Grade _ ids => ids | Startup ids => ids end.
Definition before (t : stage) : Prop := match t with Arrived | Ready | Copying _ | Loading _ => True | _ => False end.
Lemma sub_empty {A} (l : list A) : sub [] l.
Proof. induction l; constructor; auto. Qed.
Lemma sub_snoc {A} (l l' : list A) x : sub l l' -> sub (l ++ [x]) (l' ++ [x]).
Proof. induction 1; cbn; constructor; auto. constructor. Qed.
Lemma sub_snoc_skip {A} (l l' : list A) x : sub l l' -> sub l (l' ++ [x]).
Proof. induction 1; cbn; constructor; auto. constructor. Qed.
Lemma sub_app {A} (l l' m : list A) : sub l l' -> sub l (l' ++ m).
Proof. induction 1; cbn; [apply sub_empty|constructor; auto|constructor; auto]. Qed.
Lemma sub_refl {A} (l : list A) : sub l l.
Proof. induction l; constructor; auto. Qed.

Definition progress (r : request) (t : stage) (done : list Z) : Prop :=
  match t with
  | Arrived | Ready | Copying _ | Loading _ => done = []
  | Injecting _ todo => exists tried, want r = tried ++ todo /\ match r with Startup _ => sub done tried | _ => tried = done end
  | Assigned | Gone => exists tried rest, want r = tried ++ rest /\ match r with Startup _ => sub done tried | _ => tried = done end
  end.
Record inv (es : list event) (s : state) : Prop := {
  i_arr : forall i r t, nth_error (threads s) i = Some (r, t) -> match r with Startup l => In (Restarts i l) es | _ => In (Arrives i r) es end;
  i_arr2 : forall i r, In (Arrives i r) es -> (exists t, nth_error (threads s) i = Some (r, t)) /\ match r with Startup _ => False | _ => True end;
  i_res2 : forall i l, In (Restarts i l) es -> (exists t, nth_error (threads s) i = Some (Startup l, t)) /\ NoDup l;
  i_kind : forall i r t, nth_error (threads s) i = Some (r, t) -> match t with Ready | Copying _ => match r with NewRun _ _ => True | _ => False end | Loading _ | Assigned => match r with Grade _ _ => True | _ => False end | _ => True end;
  i_prog : forall i r t, nth_error (threads s) i = Some (r, t) -> progress r t (ids_queued_by i es);
  i_none : forall i, length (threads s) <= i -> queued_by i es = [];
  i_prio : forall i r t id c p, nth_error (threads s) i = Some (r, t) -> In (id, c, p) (queued_by i es) -> p = priority_of slow r id;
  i_src : forall i id c p, In (id, c, p) (queued_by i es) -> exists c', files s (guid_of id) = Some c' /\ starts_with c' c;
  i_cur : forall i r c todo, nth_error (threads s) i = Some (r, Injecting (Some c) todo) -> exists id rest, todo = id :: rest /\ exists c', files s (guid_of id) = Some c' /\ starts_with c' c;
  i_nodup : NoDup (created es);
  i_made : forall g, In g (created es) <-> files s g <> None;
  i_file : forall i g, In (Creates i g) es -> exists id body t c, nth_error (threads s) i = Some (NewRun id body, t) /\ guid_of id = g /\
     files s g = Some c /\ starts_with body c /\
     match t with Copying rest => body = (c ++ rest)%string | Injecting _ _ | Gone => True | _ => False end;
  i_own : forall i id body t, nth_error (threads s) i = Some (NewRun id body, t) -> match t with Copying _ | Injecting _ _ => In (Creates i (guid_of id)) es | Arrived | Ready => ~ exists g, In (Creates i g) es | _ => queued_by i es <> [] -> In (Creates i (guid_of id)) es end;
  i_new : forall i id body t c p, nth_error (threads s) i = Some (NewRun id body, t) -> In (id, c, p) (queued_by i es) -> files s (guid_of id) = Some c;
  i_newcur : forall i id body c todo, nth_error (threads s) i = Some (NewRun id body, Injecting (Some c) todo) -> files s (guid_of id) = Some c;
  i_ans : forall i st, In (Answers i st) es -> exists r, nth_error (threads s) i = Some (r, Gone)
}.

Lemma in_snoc {A} (x y : A) l : In x (l ++ [y]) <-> In x l \/ x = y.
Proof. rewrite in_app_iff. cbn. intuition. Qed.
(* An event that is neither an arrival, a creation nor a queueing. *)
Definition quiet (e : event) : Prop := match e with Tau | Answers _ _ | Skips _ _ => True | _ => False end.
Lemma queued_quiet i es e : quiet e -> queued_by i (es ++ [e]) = queued_by i es.
Proof. intros H. rewrite queued_app. destruct e; cbn in *; try contradiction; apply app_nil_r. Qed.
Lemma created_quiet es e : quiet e -> created (es ++ [e]) = created es.
Proof. intros H. rewrite created_app. destruct e; cbn in *; try contradiction; apply app_nil_r. Qed.

Lemma inv_move es s s' i r t t' e :
  inv es s -> quiet e -> (forall j st, e = Answers j st -> j = i /\ t' = Gone) ->
  nth_error (threads s) i = Some (r, t) -> files s' = files s -> threads s' = upd (threads s) i (r, t') ->
  t <> Gone ->
  (match t' with Ready | Copying _ => match r with NewRun _ _ => True | _ => False end | Loading _ | Assigned => match r with Grade _ _ => True | _ => False end | _ => True end) ->
  progress r t' (ids_queued_by i es) ->
  (forall c todo, t' = Injecting (Some c) todo -> exists id rest, todo = id :: rest /\ files s (guid_of id) = Some c) ->
  (forall id body, r = NewRun id body ->
     match t with
     | Arrived | Ready => t' = Ready \/ t' = Gone
     | Copying _ => t' = Injecting None [id]
     | Injecting _ todo => (exists c, t' = Injecting (Some c) [id]) \/ t' = Gone
     | _ => False
     end) ->
  inv (es ++ [e]) s'.
Proof.
  intros I Q HA HT HF HTh HG HK HP HC HN.
  assert (NT : forall j, nth_error (threads s') j = if Nat.eqb i j then Some (r, t') else nth_error (threads s) j).
  { intros j. rewrite HTh, nth_upd, HT. reflexivity. }
  assert (OLD : forall j r0 t0, nth_error (threads s') j = Some (r0, t0) -> exists t1, nth_error (threads s) j = Some (r0, t1)).
  { intros j r0 t0 H. rewrite NT in H. destruct (Nat.eqb_spec i j) as [<-|]; [|eauto]. injection H as <- <-. eauto. }
  assert (NEW : forall j r0 t0, nth_error (threads s) j = Some (r0, t0) -> exists t1, nth_error (threads s') j = Some (r0, t1)).
  { intros j r0 t0 H. rewrite NT. destruct (Nat.eqb_spec i j) as [<-|]; [|eauto]. rewrite HT in H. injection H as <- <-. eauto. }
  constructor.
  - intros j r0 t0 H. destruct (OLD _ _ _ H) as (t1 & H1). pose proof (i_arr _ _ I _ _ _ H1) as G. destruct r0; apply in_snoc; auto.
  - intros j r0 H. apply in_snoc in H. destruct H as [H|H]; [|subst e; destruct Q]. destruct (i_arr2 _ _ I _ _ H) as [(t1 & G) G2]. split; eauto.
  - intros j l H. apply in_snoc in H. destruct H as [H|H]; [|subst e; destruct Q]. destruct (i_res2 _ _ I _ _ H) as [(t1 & G) G2]. split; eauto.
  - intros j r0 t0 H. rewrite NT in H. destruct (Nat.eqb_spec i j) as [<-|]; [|eapply i_kind; eauto]. injection H as <- <-. exact HK.
  - intros j r0 t0 H. unfold ids_queued_by. rewrite queued_quiet by auto. rewrite NT in H. destruct (Nat.eqb_spec i j) as [<-|]; [|eapply i_prog; eauto]. injection H as <- <-. exact HP.
  - intros j H. rewrite queued_quiet by auto. apply (i_none _ _ I). rewrite HTh, upd_length in H. auto.
  - intros j r0 t0 id c p H. rewrite queued_quiet by auto. destruct (OLD _ _ _ H) as (t1 & H1). eapply i_prio; eauto.
  - intros j id c p. rewrite queued_quiet, HF by auto. apply (i_src _ _ I).
  - intros j r0 c todo H. rewrite HF. rewrite NT in H. destruct (Nat.eqb_spec i j) as [<-|]; [|eapply i_cur; eauto]. injection H as <- ->.
    destruct (HC _ _ eq_refl) as (id & rest & E & G). exists id, rest. split; [auto|]. exists c. split; [auto|apply starts_refl].
  - rewrite created_quiet by auto. apply (i_nodup _ _ I).
  - intros g. rewrite created_quiet, HF by auto. apply (i_made _ _ I).
  - intros j g H. apply in_snoc in H. destruct H as [H|H]; [|subst e; destruct Q].
    destruct (i_file _ _ I _ _ H) as (id & body & t0 & c & A & B & C & D & E). rewrite HF. 
    destruct (Nat.eqb_spec i j) as [<-|N].
    + rewrite HT in A. injection A as -> ->. exists id, body, t', c. rewrite NT, Nat.eqb_refl. repeat split; auto.
      specialize (HN _ _ eq_refl). destruct t0; try contradiction; [subst t'; auto|]. destruct HN as [(c' & ->)| ->]; auto.
    + exists id, body, t0, c. rewrite NT, (proj2 (Nat.eqb_neq _ _) N). auto.
  - intros j id body t0 H. rewrite queued_quiet by auto. assert (EQ : forall k g, In (Creates k g) (es ++ [e]) <-> In (Creates k g) es).
    { intros k g. rewrite in_snoc. split; [intros [|H2]; [auto|subst e; destruct Q]|auto]. }
    rewrite NT in H. destruct (Nat.eqb_spec i j) as [<-|N].
    + injection H as -> <-. specialize (HN _ _ eq_refl). pose proof (i_own _ _ I _ _ _ _ HT) as O.
      destruct t; try contradiction.
      * destruct HN as [-> | ->]; [intros (g & G); apply EQ in G; apply O; eauto|]. intros X. exfalso. apply X. apply (i_prog _ _ I) in HT. cbn in HT. unfold ids_queued_by in HT. apply map_eq_nil in HT. auto.
      * destruct HN as [-> | ->]; [intros (g & G); apply EQ in G; apply O; eauto|]. intros X. exfalso. apply X. apply (i_prog _ _ I) in HT. cbn in HT. unfold ids_queued_by in HT. apply map_eq_nil in HT. auto.
      * subst t'. apply EQ. auto.
      * destruct HN as [(c & ->)| ->]; [apply EQ; auto|intros _; apply EQ; auto].
    + pose proof (i_own _ _ I _ _ _ _ H) as O. destruct t0; rewrite ?EQ; auto; intros (g & G); apply EQ in G; apply O; eauto.
  - intros j id body t0 c p H. rewrite queued_quiet, HF by auto. destruct (OLD _ _ _ H) as (t1 & H1). eapply (i_new _ _ I); eauto.
  - intros j id body c todo H. rewrite HF. rewrite NT in H. destruct (Nat.eqb_spec i j) as [<-|]; [|eapply (i_newcur _ _ I); eauto]. injection H as -> ->.
    destruct (HC _ _ eq_refl) as (id' & rest & -> & G). specialize (HN _ _ eq_refl).
    destruct t; try contradiction; try (destruct HN; discriminate); try discriminate.
    destruct HN as [(c' & X)|X]; [injection X as <- <- ->; auto|discriminate].
  - intros j st H. apply in_snoc in H. destruct H as [H|H].
    + destruct (i_ans _ _ I _ _ H) as (r0 & G). rewrite NT. destruct (Nat.eqb_spec i j) as [<-|]; [|eauto]. rewrite HT in G. injection G as <- ->. congruence.
    + symmetry in H. destruct (HA _ _ H) as [-> ->]. exists r. rewrite NT, Nat.eqb_refl. auto.
Qed.
Lemma starts_app a c : starts_with (a ++ c) a.
Proof. exists c. reflexivity. Qed.
Lemma app_str_assoc (a b c : string) : ((a ++ b) ++ c)%string = (a ++ (b ++ c))%string.
Proof. induction a as [|h a IH]; cbn; [reflexivity|rewrite IH; reflexivity]. Qed.

(* A step that gives the file g a content extending the one it had. *)
Lemma inv_file es s s' i id body t rest c' e :
  inv es s -> nth_error (threads s) i = Some (NewRun id body, t) ->
  s' = move (set_file s (guid_of id) c') i (NewRun id body) (Copying rest) ->
  (e = Creates i (guid_of id) /\ files s (guid_of id) = None /\ c' = ""%string /\ t = Ready /\ rest = body \/
   e = Tau /\ exists a c, t = Copying (String a rest) /\ files s (guid_of id) = Some c /\ c' = (c ++ String a "")%string) ->
  inv (es ++ [e]) s'.
Proof.
  intros I HT -> HE.
  assert (QE : forall j, queued_by j (es ++ [e]) = queued_by j es).
  { intros j. rewrite queued_app. destruct HE as [(-> & _)|(-> & _)]; cbn; apply app_nil_r. }
  assert (NT : forall j, nth_error (upd (threads s) i (NewRun id body, Copying rest)) j = if Nat.eqb i j then Some (NewRun id body, Copying rest) else nth_error (threads s) j).
  { intros j. rewrite nth_upd, HT. reflexivity. }
  assert (OLD : forall j r0 t0, nth_error (upd (threads s) i (NewRun id body, Copying rest)) j = Some (r0, t0) -> exists t1, nth_error (threads s) j = Some (r0, t1)).
  { intros j r0 t0 H. rewrite NT in H. destruct (Nat.eqb_spec i j) as [<-|]; [|eauto]. injection H as <- <-. eauto. }
  assert (NEW : forall j r0 t0, nth_error (threads s) j = Some (r0, t0) -> exists t1, nth_error (upd (threads s) i (NewRun id body, Copying rest)) j = Some (r0, t1)).
  { intros j r0 t0 H. rewrite NT. destruct (Nat.eqb_spec i j) as [<-|]; [|eauto]. rewrite HT in H. injection H as <- <-. eauto. }
  assert (FI : forall g c, files s g = Some c -> exists c1, (if (g =? guid_of id)%string then Some c' else files s g) = Some c1 /\ starts_with c1 c /\ (g <> guid_of id -> c1 = c)).
  { intros g c H. destruct (String.eqb_spec g (guid_of id)) as [->|N]; [|exists c; split; [auto|split; [apply starts_refl|auto]]].
    exists c'. destruct HE as [(_ & F & _)|(_ & a & c0 & _ & F & ->)]; [congruence|]. rewrite F in H. injection H as <-. split; [auto|]. split; [apply starts_app|congruence]. }
  assert (Q0 : queued_by i es = []).
  { pose proof (i_prog _ _ I _ _ _ HT) as P. destruct HE as [(_ & _ & _ & -> & _)|(_ & a & c & -> & _)]; cbn in P; apply map_eq_nil in P; auto. }
  (* only the creator of a file is copying to it *)
  assert (OC : In (Creates i (guid_of id)) (es ++ [e])).
  { apply in_snoc. destruct HE as [(-> & _)|(_ & a & c & -> & _)]; [auto|]. left. apply (i_own _ _ I _ _ _ _ HT). }
  assert (OTHER : forall j g, In (Creates j g) es -> j <> i -> g <> guid_of id).
  { intros j g H N ->. destruct HE as [(-> & F & _)|(_ & a & c & -> & _)].
    - apply in_created in H. apply (i_made _ _ I) in H. congruence.
    - apply N. eapply (creator_unique _ _ _ es (i_nodup _ _ I)); eauto. apply (i_own _ _ I _ _ _ _ HT). }
  constructor; cbn [files threads move set_file].
  - intros j r0 t0 H. destruct (OLD _ _ _ H) as (t1 & H1). pose proof (i_arr _ _ I _ _ _ H1) as G. destruct r0; apply in_snoc; auto.
  - intros j r0 H. apply in_snoc in H. destruct H as [H|H]; [|destruct HE as [(-> & _)|(-> & _)]; discriminate]. destruct (i_arr2 _ _ I _ _ H) as [(t1 & G) G2]. split; eauto.
  - intros j l H. apply in_snoc in H. destruct H as [H|H]; [|destruct HE as [(-> & _)|(-> & _)]; discriminate]. destruct (i_res2 _ _ I _ _ H) as [(t1 & G) G2]. split; eauto.
  - intros j r0 t0 H. rewrite NT in H. destruct (Nat.eqb_spec i j) as [<-|]; [|eapply i_kind; eauto]. injection H as <- <-. exact Logic.I.
  - intros j r0 t0 H. unfold ids_queued_by. rewrite QE. rewrite NT in H. destruct (Nat.eqb_spec i j) as [<-|]; [|eapply i_prog; eauto]. injection H as <- <-. cbn. rewrite Q0. reflexivity.
  - intros j H. rewrite QE. apply (i_none _ _ I). rewrite upd_length in H. auto.
  - intros j r0 t0 id0 c p H. rewrite QE. destruct (OLD _ _ _ H) as (t1 & H1). eapply i_prio; eauto.
  - intros j id0 c p H. rewrite QE in H. destruct (i_src _ _ I _ _ _ _ H) as (c0 & F & G). destruct (FI _ _ F) as (c1 & F1 & G1 & _). exists c1. split; [auto|eapply starts_trans; eauto].
  - intros j r0 c todo H. rewrite NT in H. destruct (Nat.eqb_spec i j) as [<-|]; [discriminate|].
    destruct (i_cur _ _ I _ _ _ _ H) as (id0 & rst & E & c0 & F & G). exists id0, rst. split; [auto|]. destruct (FI _ _ F) as (c1 & F1 & G1 & _). exists c1. split; [auto|eapply starts_trans; eauto].
  - rewrite created_app. destruct HE as [(-> & F & _)|(-> & _)]; cbn; [|rewrite app_nil_r; apply (i_nodup _ _ I)].
    apply NoDup_app_snoc_. { apply (i_nodup _ _ I). } intros H. apply (i_made _ _ I) in H. congruence.
  - intros g. rewrite created_app, in_app_iff. rewrite (i_made _ _ I). destruct (String.eqb_spec g (guid_of id)) as [->|N].
    + split; [discriminate|]. intros _. destruct HE as [(-> & F & _)|(-> & a & c & _ & F & _)]; [right; cbn; auto|left; congruence].
    + destruct HE as [(-> & _)|(-> & _)]; cbn; intuition congruence.
  - intros j g H. destruct (Nat.eqb_spec i j) as [<-|N].
    + assert (g = guid_of id) as ->.
      { apply in_snoc in H. destruct H as [H|H].
        - destruct (i_file _ _ I _ _ H) as (id0 & b0 & t0 & c0 & A & B & _). rewrite HT in A. injection A as <- <- <-. auto.
        - destruct HE as [(-> & _)|(-> & _)]; [injection H as ->; auto|discriminate]. }
      exists id, body, (Copying rest), c'. rewrite NT, Nat.eqb_refl, String.eqb_refl. repeat split; auto.
      * destruct HE as [(-> & _ & -> & _)|(-> & a & c & -> & F & ->)]; [exists body; auto|].
        pose proof (i_own _ _ I _ _ _ _ HT) as O. cbn in O. destruct (i_file _ _ I _ _ O) as (id0 & b0 & t0 & c0 & A & B & C & D & E).
        rewrite HT in A. injection A as <- <- <-. rewrite F in C. injection C as <-. exists rest. rewrite E, app_str_assoc. reflexivity.
      * destruct HE as [(-> & _ & -> & _ & ->)|(-> & a & c & -> & F & ->)]; [reflexivity|].
        pose proof (i_own _ _ I _ _ _ _ HT) as O. cbn in O. destruct (i_file _ _ I _ _ O) as (id0 & b0 & t0 & c0 & A & B & C & D & E).
        rewrite HT in A. injection A as <- <- <-. rewrite F in C. injection C as <-. rewrite E, app_str_assoc. reflexivity.
    + apply in_snoc in H. destruct H as [H|H]; [|destruct HE as [(-> & _)|(-> & _)]; [injection H as -> _; congruence|discriminate]].
      pose proof (OTHER _ _ H (not_eq_sym N)) as NG.
      destruct (i_file _ _ I _ _ H) as (id0 & b0 & t0 & c0 & A & B & C & D & E). exists id0, b0, t0, c0.
      rewrite NT, (proj2 (Nat.eqb_neq _ _) N), (proj2 (String.eqb_neq _ _) NG). auto.
  - intros j id0 b0 t0 H. rewrite QE. rewrite NT in H. destruct (Nat.eqb_spec i j) as [<-|N].
    + injection H as <- <- <-. exact OC.
    + pose proof (i_own _ _ I _ _ _ _ H) as O. destruct t0; rewrite ?in_snoc; auto; intros (g & G); apply in_snoc in G.
      * destruct G as [G|G]; [apply O; eauto|]. destruct HE as [(-> & _)|(-> & _)]; [injection G as -> _; congruence|discriminate].
      * destruct G as [G|G]; [apply O; eauto|]. destruct HE as [(-> & _)|(-> & _)]; [injection G as -> _; congruence|discriminate].
  - intros j id0 b0 t0 c p H. rewrite QE. intros HQ. destruct (Nat.eqb_spec i j) as [<-|N].
    + rewrite Q0 in HQ. destruct HQ.
    + rewrite NT, (proj2 (Nat.eqb_neq _ _) N) in H. pose proof (i_new _ _ I _ _ _ _ _ _ H HQ) as F.
      assert (O : In (Creates j (guid_of id0)) es).
      { pose proof (i_own _ _ I _ _ _ _ H) as O. pose proof (i_prog _ _ I _ _ _ H) as P. destruct t0; cbn in P; auto; try (apply O; intros X; rewrite X in HQ; destruct HQ);
        apply map_eq_nil in P; rewrite P in HQ; destruct HQ. }
      destruct (String.eqb_spec (guid_of id0) (guid_of id)) as [E|]; [|auto]. elim (OTHER _ _ O (not_eq_sym N) E).
  - intros j id0 b0 c todo H. rewrite NT in H. destruct (Nat.eqb_spec i j) as [<-|N]; [discriminate|].
    pose proof (i_newcur _ _ I _ _ _ _ _ H) as F. pose proof (i_own _ _ I _ _ _ _ H) as O. cbn in O.
    destruct (String.eqb_spec (guid_of id0) (guid_of id)) as [E|]; [|auto]. elim (OTHER _ _ O (not_eq_sym N) E).
  - intros j st H. apply in_snoc in H. destruct H as [H|H]; [|destruct HE as [(-> & _)|(-> & _)]; discriminate].
    destruct (i_ans _ _ I _ _ H) as (r0 & G). rewrite NT. destruct (Nat.eqb_spec i j) as [<-|]; [|eauto].
    rewrite HT in G. injection G as <- ->. destruct HE as [(_ & _ & _ & X & _)|(_ & a & c & X & _)]; discriminate X.
Qed.

Lemma inv_queue es s i r id todo c :
  inv es s -> nth_error (threads s) i = Some (r, Injecting (Some c) (id :: todo)) ->
  inv (es ++ [Queues i id c (priority_of slow r id)]) (move s i r (Injecting None todo)).
Proof.
  intros I HT. set (e := Queues i id c (priority_of slow r id)).
  assert (QI : queued_by i (es ++ [e]) = queued_by i es ++ [(id, c, priority_of slow r id)]).
  { rewrite queued_app. cbn. rewrite Nat.eqb_refl. reflexivity. }
  assert (QN : forall j, j <> i -> queued_by j (es ++ [e]) = queued_by j es).
  { intros j N. rewrite queued_app. cbn. rewrite (proj2 (Nat.eqb_neq _ _) N). apply app_nil_r. }
  assert (CE : created (es ++ [e]) = created es) by (rewrite created_app; cbn; apply app_nil_r).
  assert (NT : forall j, nth_error (upd (threads s) i (r, Injecting None todo)) j = if Nat.eqb i j then Some (r, Injecting None todo) else nth_error (threads s) j).
  { intros j. rewrite nth_upd, HT. reflexivity. }
  assert (OLD : forall j r0 t0, nth_error (upd (threads s) i (r, Injecting None todo)) j = Some (r0, t0) -> exists t1, nth_error (threads s) j = Some (r0, t1)).
  { intros j r0 t0 H. rewrite NT in H. destruct (Nat.eqb_spec i j) as [<-|]; [|eauto]. injection H as <- <-. eauto. }
  assert (NEW : forall j r0 t0, nth_error (threads s) j = Some (r0, t0) -> exists t1, nth_error (upd (threads s) i (r, Injecting None todo)) j = Some (r0, t1)).
  { intros j r0 t0 H. rewrite NT. destruct (Nat.eqb_spec i j) as [<-|]; [|eauto]. rewrite HT in H. injection H as <- <-. eauto. }
  assert (EQ : forall k g, In (Creates k g) (es ++ [e]) <-> In (Creates k g) es).
  { intros k g. rewrite in_snoc. split; [intros [|H2]; [auto|discriminate H2]|auto]. }
  constructor; cbn [files threads move].
  - intros j r0 t0 H. destruct (OLD _ _ _ H) as (t1 & H1). pose proof (i_arr _ _ I _ _ _ H1) as G. destruct r0; apply in_snoc; auto.
  - intros j r0 H. apply in_snoc in H. destruct H as [H|H]; [|discriminate]. destruct (i_arr2 _ _ I _ _ H) as [(t1 & G) G2]. split; eauto.
  - intros j l H. apply in_snoc in H. destruct H as [H|H]; [|discriminate]. destruct (i_res2 _ _ I _ _ H) as [(t1 & G) G2]. split; eauto.
  - intros j r0 t0 H. rewrite NT in H. destruct (Nat.eqb_spec i j) as [<-|]; [|eapply i_kind; eauto]. injection H as <- <-. exact Logic.I.
  - intros j r0 t0 H. unfold ids_queued_by. rewrite NT in H. destruct (Nat.eqb_spec i j) as [<-|]; [|rewrite QN by auto; eapply i_prog; eauto].
    injection H as <- <-. pose proof (i_prog _ _ I _ _ _ HT) as (tried & W & G). rewrite QI, map_app. cbn. exists (tried ++ [id]). rewrite <- app_assoc. split; [auto|].
    destruct r; try (rewrite G; reflexivity). apply sub_snoc. exact G.
  - intros j H. rewrite upd_length in H. rewrite QN; [apply (i_none _ _ I); auto|]. intros ->. apply nth_error_None in H. congruence.
  - intros j r0 t0 id0 c0 p H HQ. destruct (OLD _ _ _ H) as (t1 & H1). destruct (Nat.eqb_spec i j) as [<-|].
    + rewrite QI in HQ. apply in_snoc in HQ. rewrite HT in H1. injection H1 as <- <-. destruct HQ as [HQ|HQ]; [eapply i_prio; eauto|congruence].
    + rewrite QN in HQ by auto. eapply i_prio; eauto.
  - intros j id0 c0 p HQ. destruct (Nat.eqb_spec i j) as [<-|].
    + rewrite QI in HQ. apply in_snoc in HQ. destruct HQ as [HQ|HQ]; [eapply i_src; eauto|]. injection HQ as -> -> _.
      destruct (i_cur _ _ I _ _ _ _ HT) as (id1 & rst & E & G). injection E as <- <-. auto.
    + rewrite QN in HQ by auto. eapply i_src; eauto.
  - intros j r0 c0 todo0 H. rewrite NT in H. destruct (Nat.eqb_spec i j) as [<-|]; [discriminate|]. eapply i_cur; eauto.
  - rewrite CE. apply (i_nodup _ _ I).
  - intros g. rewrite CE. apply (i_made _ _ I).
  - intros j g H. apply EQ in H. destruct (i_file _ _ I _ _ H) as (id0 & b0 & t0 & c0 & A & B & C & D & E).
    destruct (Nat.eqb_spec i j) as [<-|N].
    + rewrite HT in A. injection A as -> <-. exists id0, b0, (Injecting None todo), c0. rewrite NT, Nat.eqb_refl. auto.
    + exists id0, b0, t0, c0. rewrite NT, (proj2 (Nat.eqb_neq _ _) N). auto.
  - intros j id0 b0 t0 H. rewrite NT in H. destruct (Nat.eqb_spec i j) as [<-|N].
    + injection H as -> <-. pose proof (i_own _ _ I _ _ _ _ HT) as O. cbn in O. apply EQ. auto.
    + pose proof (i_own _ _ I _ _ _ _ H) as O. rewrite QN by auto. destruct t0; rewrite ?EQ; auto; intros (g & G); apply EQ in G; apply O; eauto.
  - intros j id0 b0 t0 c0 p H HQ. destruct (Nat.eqb_spec i j) as [<-|N].
    + destruct (OLD _ _ _ H) as (t1 & H1). rewrite HT in H1. injection H1 as -> <-. rewrite QI in HQ. apply in_snoc in HQ.
      destruct HQ as [HQ|HQ]; [eapply (i_new _ _ I); eauto|]. injection HQ as -> -> _. eapply (i_newcur _ _ I); eauto.
    + destruct (OLD _ _ _ H) as (t1 & H1). rewrite QN in HQ by auto. eapply (i_new _ _ I); eauto.
  - intros j id0 b0 c0 todo0 H. rewrite NT in H. destruct (Nat.eqb_spec i j) as [<-|N]; [discriminate|]. eapply (i_newcur _ _ I); eauto.
  - intros j st H. apply in_snoc in H. destruct H as [H|H]; [|discriminate].
    destruct (i_ans _ _ I _ _ H) as (r0 & G). rewrite NT. destruct (Nat.eqb_spec i j) as [<-|]; [|eauto]. rewrite HT in G. discriminate G.
Qed.

(* A thread is added, and (when the process is started again) the others are gone. *)
Lemma inv_add es s s' (dead : bool) r t e :
  inv es s -> files s' = files s ->
  threads s' = (if dead then map (fun t => (fst t, Gone)) (threads s) else threads s) ++ [(r, t)] ->
  (e = Arrives (length (threads s)) r /\ t = Arrived /\ dead = false /\ match r with Startup _ => False | _ => True end \/
   exists l, e = Restarts (length (threads s)) l /\ r = Startup l /\ t = Injecting None l /\ NoDup l) ->
  inv (es ++ [e]) s'.
Proof.
  intros I HF HTh HE.
  assert (QE : forall j, queued_by j (es ++ [e]) = queued_by j es).
  { intros j. rewrite queued_app. destruct HE as [(-> & _)|(l & -> & _)]; cbn; apply app_nil_r. }
  assert (CE : created (es ++ [e]) = created es) by (rewrite created_app; destruct HE as [(-> & _)|(l & -> & _)]; cbn; apply app_nil_r).
  assert (EQ : forall k g, In (Creates k g) (es ++ [e]) <-> In (Creates k g) es).
  { intros k g. rewrite in_snoc. split; [intros [|H2]; [auto|]|auto]. destruct HE as [(-> & _)|(l & -> & _)]; discriminate. }
  set (n := length (threads s)) in *.
  assert (NT : forall j, nth_error (threads s') j = if Nat.eqb j n then Some (r, t) else match nth_error (threads s) j with Some (r0, t0) => Some (r0, if dead then Gone else t0) | None => None end).
  { intros j. rewrite HTh, nth_snoc. replace (length (if dead then _ else _)) with n by (destruct dead; [rewrite map_length|]; auto).
    destruct (Nat.eqb j n); [auto|]. destruct dead; [rewrite nth_error_map|]; destruct (nth_error (threads s) j) as [[r0 t0]|]; reflexivity. }
  assert (IN : forall j r0 t0, nth_error (threads s) j = Some (r0, t0) -> j <> n).
  { intros j r0 t0 H ->. assert (nth_error (threads s) n = None) by (apply nth_error_None; auto). congruence. }
  assert (NEW : forall j r0 t0, nth_error (threads s) j = Some (r0, t0) -> nth_error (threads s') j = Some (r0, if dead then Gone else t0)).
  { intros j r0 t0 H. rewrite NT, H. rewrite (proj2 (Nat.eqb_neq _ _) (IN _ _ _ H)). auto. }
  assert (OLD : forall j r0 t0, nth_error (threads s') j = Some (r0, t0) -> j = n /\ r0 = r /\ t0 = t \/ exists t1, nth_error (threads s) j = Some (r0, t1) /\ (t0 = Gone \/ t0 = t1)).
  { intros j r0 t0 H. rewrite NT in H. destruct (Nat.eqb_spec j n) as [->|N]; [left; injection H as <- <-; auto|]. right.
    destruct (nth_error (threads s) j) as [[r1 t1]|]; [|discriminate]. injection H as <- <-. exists t1. destruct dead; auto. }
  assert (Q0 : queued_by n es = []) by (apply (i_none _ _ I); auto).
  assert (C0 : forall g, ~ In (Creates n g) es).
  { intros g H. destruct (i_file _ _ I _ _ H) as (id0 & b0 & t0 & c0 & A & _). apply IN in A. congruence. }
  assert (TT : t = Arrived /\ match r with Startup _ => False | _ => True end \/ exists l, r = Startup l /\ t = Injecting None l).
  { destruct HE as [(_ & A & _ & B)|(l & _ & A & B & _)]; [left; auto|right; eauto]. }
  constructor.
  - intros j r0 t0 H. destruct (OLD _ _ _ H) as [(-> & -> & ->)|(t1 & H1 & _)].
    + destruct HE as [(-> & -> & _ & X)|(l & -> & -> & -> & _)]; [destruct r; try contradiction; apply in_snoc; auto|apply in_snoc; auto].
    + pose proof (i_arr _ _ I _ _ _ H1) as G. destruct r0; apply in_snoc; auto.
  - intros j r0 H. apply in_snoc in H. destruct H as [H|H].
    + destruct (i_arr2 _ _ I _ _ H) as [(t1 & G) G2]. split; eauto.
    + destruct HE as [(-> & -> & _ & X)|(l & -> & _)]; [|discriminate]. injection H as -> ->. split; [|auto]. exists Arrived. rewrite NT, Nat.eqb_refl. auto.
  - intros j l H. apply in_snoc in H. destruct H as [H|H].
    + destruct (i_res2 _ _ I _ _ H) as [(t1 & G) G2]. split; eauto.
    + destruct HE as [(-> & _)|(l' & -> & -> & -> & HN)]; [discriminate|]. injection H as -> ->. split; [|auto]. eexists. rewrite NT, Nat.eqb_refl. reflexivity.
  - intros j r0 t0 H. destruct (OLD _ _ _ H) as [(-> & -> & ->)|(t1 & H1 & [->| ->])]; [|exact Logic.I|eapply i_kind; eauto].
    destruct TT as [(-> & _)|(l & -> & ->)]; exact Logic.I.
  - intros j r0 t0 H. unfold ids_queued_by. rewrite QE. destruct (OLD _ _ _ H) as [(-> & -> & ->)|(t1 & H1 & [->| ->])].
    + rewrite Q0. destruct TT as [(-> & _)|(l & -> & ->)]; [reflexivity|]. exists []. split; [reflexivity|constructor].
    + pose proof (i_prog _ _ I _ _ _ H1) as P. unfold ids_queued_by in P. cbn. destruct t1; cbn in P.
      1-4: rewrite P; exists [], (want r0); split; [reflexivity|destruct r0; try reflexivity; constructor].
      * destruct P as (tried & A & B). exists tried, todo. auto.
      * auto.
      * auto.
    + eapply i_prog; eauto.
  - intros j H. rewrite QE. apply (i_none _ _ I). rewrite HTh, app_length in H. destruct dead; rewrite ?map_length in H; cbn in H; lia.
  - intros j r0 t0 id c p H. rewrite QE. destruct (OLD _ _ _ H) as [(-> & -> & ->)|(t1 & H1 & _)]; [rewrite Q0; intros []|eapply i_prio; eauto].
  - intros j id c p. rewrite QE, HF. apply (i_src _ _ I).
  - intros j r0 c todo H. rewrite HF. destruct (OLD _ _ _ H) as [(_ & _ & X)|(t1 & H1 & [X|X])]; [|discriminate X|subst t1; eapply i_cur; eauto].
    destruct TT as [(-> & _)|(l & -> & ->)]; discriminate X.
  - rewrite CE. apply (i_nodup _ _ I).
  - intros g. rewrite CE, HF. apply (i_made _ _ I).
  - intros j g H. apply EQ in H. destruct (i_file _ _ I _ _ H) as (id & body & t0 & c & A & B & C & D & E). rewrite HF.
    exists id, body, (if dead then Gone else t0), c. split; [apply NEW; auto|]. destruct dead; auto.
  - intros j id body t0 H. rewrite QE. destruct (OLD _ _ _ H) as [(-> & <- & ->)|(t1 & H1 & [->| ->])].
    + destruct TT as [(-> & _)|(l & X & _)]; [|discriminate]. intros (g & G). apply EQ in G. apply C0 in G. auto.
    + intros X. apply EQ. pose proof (i_own _ _ I _ _ _ _ H1) as O. pose proof (i_prog _ _ I _ _ _ H1) as P. destruct t1; cbn in P; auto;
        exfalso; apply X; apply map_eq_nil in P; auto.
    + pose proof (i_own _ _ I _ _ _ _ H1) as O. destruct t1; rewrite ?EQ; auto; intros (g & G); apply EQ in G; apply O; eauto.
  - intros j id body t0 c p H. rewrite QE, HF. destruct (OLD _ _ _ H) as [(-> & <- & ->)|(t1 & H1 & _)]; [rewrite Q0; intros []|eapply (i_new _ _ I); eauto].
  - intros j id body c todo H. rewrite HF. destruct (OLD _ _ _ H) as [(_ & _ & X)|(t1 & H1 & [X|X])]; [|discriminate X|subst t1; eapply (i_newcur _ _ I); eauto].
    destruct TT as [(-> & _)|(l & -> & ->)]; discriminate X.
  - intros j st H. apply in_snoc in H. destruct H as [H|H]; [|destruct HE as [(-> & _)|(l & -> & _)]; discriminate].
    destruct (i_ans _ _ I _ _ H) as (r0 & G). apply NEW in G. exists r0. rewrite G. destruct dead; reflexivity.
Qed.


Ltac mv I t := eapply (inv_move _ _ _ _ _ t _ _ I); [exact Logic.I| | eassumption | reflexivity | reflexivity | discriminate | exact Logic.I | | | ];
  [intros ? ? X; first [discriminate X | injection X as <- <-; auto] | | first [discriminate | idtac] | first [discriminate | idtac]].
Lemma inv_step es s e s' : inv es s -> step s e s' -> inv (es ++ [e]) s'.
Proof.
  intros I H. destruct H.
  - apply (inv_add es s _ false r Arrived); auto.
  - mv I Arrived; [apply (i_prog _ _ I) in H; exact H|auto].
  - mv I Arrived; [apply (i_prog _ _ I) in H; cbn in *; rewrite H; exists [], [id]; auto|auto].
  - eapply inv_file; eauto. left. auto.
  - mv I Ready; [apply (i_prog _ _ I) in H; cbn in *; rewrite H; exists [], [id]; auto|auto].
  - mv I Ready; [apply (i_prog _ _ I) in H; cbn in *; rewrite H; exists [], [id]; auto|auto].
  - eapply inv_file; eauto. right. split; [auto|]. eexists _, _. split; [reflexivity|]. split; eauto.
  - mv I (Copying rest); [apply (i_prog _ _ I) in H; cbn in *; rewrite H; exists []; auto|]. intros ? ? X; injection X as <- <-. auto.
  - mv I (Injecting None []); [apply (i_prog _ _ I) in H; cbn in *; destruct H as (tr & A & B); exists tr, []; auto|auto].
  - mv I (Injecting cur todo); [apply (i_prog _ _ I) in H; cbn in *; destruct H as (tr & A & B); exists tr, todo; auto|auto].
  - mv I Arrived. apply (i_prog _ _ I) in H. exact H.
  - mv I (Loading (id :: todo)). apply (i_prog _ _ I) in H. exact H.
  - mv I (Loading (id :: todo)). apply (i_prog _ _ I) in H. cbn in *; rewrite H; exists [], ids; auto.
  - mv I (Loading []). apply (i_prog _ _ I) in H. cbn in *; rewrite H; exists []; auto.
  - mv I (Injecting None []). apply (i_prog _ _ I) in H. cbn in *; destruct H as (tr & A & B); exists tr, []; auto.
  - mv I (Injecting cur todo). apply (i_prog _ _ I) in H. cbn in *; destruct H as (tr & A & B); exists tr, todo; auto.
  - mv I Assigned. apply (i_prog _ _ I) in H. exact H.
  - mv I (Injecting cur (id :: todo)). apply (i_prog _ _ I) in H. cbn in *; destruct H as (tr & A & B). exists (tr ++ [id]). rewrite <- app_assoc. split; [auto|apply sub_snoc_skip; auto].
  - mv I (Injecting None []). apply (i_prog _ _ I) in H. cbn in *; destruct H as (tr & A & B); exists tr, []; auto.
  - mv I (Injecting None (id :: todo)).
    + apply (i_prog _ _ I) in H. exact H.
    + intros ? ? X; injection X as <- <-. eauto.
    + intros id0 body ->. left. exists c. f_equal. pose proof (i_prog _ _ I _ _ _ H) as (tr & A & B). cbn in A. destruct tr as [|x tr]; [injection A as <- <-; reflexivity|].
      injection A as _ A. destruct tr; discriminate.
  - apply inv_queue; auto.
  - apply (inv_add es s _ true (Startup pending) (Injecting None pending)); auto. right. eauto.
Qed.
Lemma inv_exec ok es s : exec ok es s -> inv es s.
Proof.
  induction 1; [|eapply inv_step; eauto].
  assert (N : forall i : nat, nth_error (@nil (request * stage)) i = None) by (intros [|i]; reflexivity).
  constructor; cbn [files threads]; try (intros *; rewrite N; discriminate); try (intros; contradiction).
  - intros; reflexivity.
  - constructor.
  - intros g. split; [intros []|congruence].
Qed.
End Proofs.

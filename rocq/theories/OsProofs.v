From Coq Require Import String Ascii List Sorted Bool Arith NArith QArith Lia.
From Verif Require Import OsModel OsSpec.
Import ListNotations.
Local Open Scope list_scope.

Lemma path_eqb_eq p q : path_eqb p q = true <-> p = q.
Proof.
  revert q. induction p as [|x p IH]; intros [|y q]; cbn [path_eqb]; split; intro H; try discriminate; try reflexivity.
  - apply andb_prop in H. destruct H as [A B]. apply String.eqb_eq in A. apply IH in B. congruence.
  - injection H as -> ->. rewrite String.eqb_refl. apply IH. reflexivity.
Qed.
Lemma set_same d p e : set d p e p = Some e.
Proof. unfold set. rewrite (proj2 (path_eqb_eq p p) eq_refl). reflexivity. Qed.
Lemma set_other d p e q : p <> q -> set d p e q = d q.
Proof. unfold set. intro N. destruct (path_eqb p q) eqn:E; [apply path_eqb_eq in E; contradiction|reflexivity]. Qed.
Lemma path_dec (p q : path) : {p = q} + {p <> q}.
Proof. apply list_eq_dec, string_dec. Qed.

Section Walk.
Variable troubles : path -> trouble.
Notation walk := (walk troubles). Notation copy_node := (copy_node troubles). Notation is_ := (is_ troubles).

Lemma is_spec t p : t = NoList \/ t = NoMkdir \/ t = NoOpen \/ t = NoCreate -> (is_ t p = true <-> troubles p = t).
Proof. unfold OsModel.is_. intros [->|[->|[->| ->]]]; destruct (troubles p); split; intro; congruence. Qed.

(* ---- MkdirAll ---- *)
Lemma mkdirs_spec p : forall d q d' b, mkdirs d q p = (d', b) ->
  (forall r, d' r = d r \/ d r = None /\ d' r = Some ADir /\ exists a b, p = a ++ b /\ r = q ++ a) /\
  (b = true <-> forall a c s, p = a ++ c -> d (q ++ a) <> Some (AFile s)).
Proof.
  induction p as [|x p IH]; intros d q d' b E; cbn [mkdirs] in E.
  - destruct (d q) as [[s|]|] eqn:Q; injection E as <- <-; split; try (intro r; left; reflexivity).
    + split; [discriminate|]. intro H. exfalso. apply (H [] [] s); [reflexivity|]. rewrite app_nil_r. exact Q.
    + split; [|reflexivity]. intros _ a c s A. destruct a; [|discriminate]. rewrite app_nil_r. congruence.
    + intro r. destruct (path_dec q r) as [->|N]; [right|left; apply set_other, N]. rewrite set_same. repeat (split; [assumption||reflexivity|]).
      exists [], []. split; [reflexivity|symmetry; apply app_nil_r].
    + split; [|reflexivity]. intros _ a c s A. destruct a; [|discriminate]. rewrite app_nil_r. congruence.
  - assert (G : forall d0, (forall r, d0 r = d r \/ d r = None /\ d0 r = Some ADir /\ r = q) -> (forall s, d q <> Some (AFile s)) -> mkdirs d0 (q ++ [x]) p = (d', b) ->
        (forall r, d' r = d r \/ d r = None /\ d' r = Some ADir /\ exists a b, x :: p = a ++ b /\ r = q ++ a) /\
        (b = true <-> forall a c s, x :: p = a ++ c -> d (q ++ a) <> Some (AFile s))).
    { intros d0 F NF E0. destruct (IH _ _ _ _ E0) as (H1 & H2). split.
      - intro r. destruct (H1 r) as [R|(R1 & R2 & a & c & R3 & R4)]; destruct (F r) as [S|(S1 & S2 & S3)].
        + left. congruence.
        + right. repeat split; [exact S1|congruence|]. exists [], (x :: p). split; [reflexivity|rewrite app_nil_r; exact S3].
        + right. repeat split; [congruence|exact R2|]. exists (x :: a), c. cbn. rewrite <- R3, R4, <- app_assoc. auto.
        + congruence.
      - rewrite H2. clear H1 H2. split; intros H a c s A.
        + destruct a as [|y a]; [rewrite app_nil_r; apply NF|]. cbn in A. injection A as <- A.
          specialize (H a c s A). rewrite <- app_assoc in H. cbn in H. destruct (F (q ++ x :: a)) as [S|(S1 & S2 & S3)]; [congruence|congruence].
        + specialize (H (x :: a) c s). cbn in H. rewrite A in H. specialize (H eq_refl). rewrite <- app_assoc. cbn.
          destruct (F (q ++ x :: a)) as [S|(S1 & S2 & S3)]; congruence. }
    destruct (d q) as [[s|]|] eqn:Q.
    + injection E as <- <-. split; [intro r; left; reflexivity|]. split; [discriminate|]. intro H. exfalso. apply (H [] (x :: p) s); [reflexivity|]. rewrite app_nil_r. exact Q.
    + apply (G d); [intro; left; reflexivity|congruence|exact E].
    + apply (G (set d q ADir)); [|congruence|exact E]. intro r. destruct (path_dec q r) as [->|N]; [right; rewrite set_same; auto|left; apply set_other, N].
Qed.
Lemma above_removelast r p : p <> [] -> (above r p <-> exists a b, removelast p = a ++ b /\ r = [] ++ a).
Proof.
  intro N. destruct (exists_last N) as (q & x & ->). rewrite removelast_last. cbn. split.
  - intros (y & s & A). destruct (list_eq_dec string_dec s []) as [->|NS].
    + apply app_inj_tail in A. destruct A as [-> ->]. exists r, []. rewrite app_nil_r. auto.
    + destruct (exists_last NS) as (s' & z & ->). rewrite app_comm_cons, app_assoc in A. apply app_inj_tail in A. destruct A as [-> ->]. exists r, (y :: s'). auto.
  - intros (a & b & -> & ->). exists (hd x b), (tl (b ++ [x])). rewrite <- app_assoc. f_equal. destruct b; reflexivity.
Qed.
Lemma above_neq p q : above p q -> p <> q.
Proof. intros (x & r & ->) E. apply (f_equal (@List.length _)) in E. rewrite app_length in E. cbn in E. lia. Qed.

(* ---- One file ---- *)
Lemma create_copy_spec d p o d' e : create_copy troubles d p o = (d', e) ->
  (forall r, r <> p -> d' r = d r) /\ e <> Hangs /\
  (e = Done <-> troubles p <> NoCreate /\ (forall n, troubles p <> CopyStops n) /\ d p <> Some ADir /\ exists s, o = Some s) /\
  (e = Done -> forall s, o = Some s -> d' p = Some (AFile s)).
Proof.
  unfold create_copy. destruct (is_ NoCreate p) eqn:C.
  { apply is_spec in C; [|auto]. intro E. injection E as <- <-. split; [reflexivity|]. split; [discriminate|]. split; [|discriminate]. split; [discriminate|]. intros (A & _). contradiction. }
  assert (C' : troubles p <> NoCreate) by (intro X; apply is_spec in X; [congruence|auto]). clear C.
  assert (G : forall s0 e0, (set d p (AFile s0), e0) = (d', e) -> forall r, r <> p -> d' r = d r).
  { intros s0 e0 E r N. injection E as <- _. apply set_other. congruence. }
  intro E.
  assert (P : d p = Some ADir /\ (d, Stopped) = (d', e) \/ d p <> Some ADir /\
     match o with None => (set d p (AFile ""), Stopped) | Some s => match troubles p with CopyStops n => (set d p (AFile (substring 0 n s)), Stopped) | _ => (set d p (AFile s), Done) end end = (d', e)).
  { destruct (d p) as [[s|]|]; [right|left|right]; (split; [congruence|exact E]) || (split; [reflexivity|exact E]). }
  clear E. destruct P as [[P E]|[P E]].
  { injection E as <- <-. split; [reflexivity|]. split; [discriminate|]. split; [|discriminate]. split; [discriminate|]. intros (_ & _ & A & _). contradiction. }
  destruct o as [s|].
  - destruct (troubles p) eqn:T; (split; [eapply G; exact E|]); injection E as <- <-;
      (split; [discriminate|]); split;
      try (split; [intros _; split; [discriminate|]; split; [intro; discriminate|]; split; [exact P|eexists; reflexivity]|reflexivity]);
      try (intros _ s0 S; injection S as <-; apply set_same); try discriminate; try (exfalso; apply C'; reflexivity).
    split; [discriminate|]. intros (_ & A & _). exfalso. eapply A. reflexivity.
  - split; [eapply G; exact E|]. injection E as <- <-. split; [discriminate|]. split; [|discriminate]. split; [discriminate|]. intros (_ & _ & _ & s & A). discriminate.
Qed.

(* A visit: of a directory or not. *)
Definition visit (d : dir) (p : path) (n : node) : dir * ended :=
  match n with Dir _ => if is_ NoList p then (d, Stopped) else (d, Done) | _ => copy_node d p n end.
Lemma is_dir_dec n : {is_dir n} + {~ is_dir n}.
Proof. destruct n; [right; intros (l & A); discriminate ..|left; eexists; reflexivity]. Qed.
Lemma visit_leaf d p n : ~ is_dir n -> visit d p n = copy_node d p n.
Proof. intro N. destruct n; try reflexivity. exfalso. apply N. eexists. reflexivity. Qed.

Lemma visit_spec d p n d' e : (p <> [] \/ is_dir n) -> visit d p n = (d', e) ->
  (forall r, d' r = d r \/ d r = None /\ d' r = Some ADir /\ above r p /\ ~ is_dir n \/ r = p /\ ~ is_dir n) /\
  (e = Done <-> passes troubles d p n) /\ (e = Hangs <-> blocks troubles d p n) /\
  (e = Done -> ~ is_dir n -> copied_to d' p n).
Proof.
  intros NE E. destruct (is_dir_dec n) as [D|D].
  { destruct D as (l & ->). cbn [visit] in E. destruct (is_ NoList p) eqn:L; [apply is_spec in L; [|auto]|assert (L' : troubles p <> NoList) by (intro X; apply is_spec in X; [congruence|auto])];
      injection E as <- <-; (split; [left; reflexivity|]).
    - split; [split; [discriminate|]|split; [split; [discriminate|]|discriminate]].
      + intros [(_ & A)|(A & _)]; [contradiction|exfalso; apply A; eexists; reflexivity].
      + intros (A & _). discriminate.
    - split; [split; [intros _; left; split; [eexists; reflexivity|exact L']|reflexivity]|split; [split; [discriminate|]|]].
      + intros (A & _). discriminate.
      + intros _ A. exfalso. apply A. eexists. reflexivity. }
  destruct NE as [NE|NE]; [|contradiction].
  rewrite visit_leaf in E by exact D. unfold OsModel.copy_node in E.
  destruct (is_ NoMkdir p) eqn:M.
  { apply is_spec in M; [|auto]. injection E as <- <-. split; [left; reflexivity|]. split; [split; [discriminate|]|split; [split; [discriminate|]|discriminate]].
    - intros [(A & _)|(_ & _ & (A & _) & _)]; contradiction.
    - intros (_ & (A & _) & _). contradiction. }
  assert (M' : troubles p <> NoMkdir) by (intro X; apply is_spec in X; [congruence|auto]). clear M.
  destruct (mkdirs d [] (removelast p)) as [d1 b] eqn:MK. apply mkdirs_spec in MK. destruct MK as [F B].
  assert (F' : forall r, d1 r = d r \/ d r = None /\ d1 r = Some ADir /\ above r p).
  { intro r. destruct (F r) as [R|(R1 & R2 & R3)]; [left; exact R|right]. split; [exact R1|]. split; [exact R2|]. apply above_removelast; assumption. }
  assert (B' : b = true <-> reachable troubles d p).
  { rewrite B. clear -M' NE. split.
    - intro H. split; [exact M'|]. intros q s A. apply (above_removelast q p NE) in A. destruct A as (a & c & A1 & ->). eapply H. exact A1.
    - intros (_ & H) a c s A. apply H, above_removelast; [exact NE|]. exists a, c. auto. }
  clear F B. destruct b.
  2:{ injection E as <- <-. assert (NR : ~ reachable troubles d p) by (intro X; apply B' in X; discriminate).
      split; [intro r; destruct (F' r) as [R|(R1 & R2 & R3)]; auto 6|]. split; [split; [discriminate|]|split; [split; [discriminate|]|discriminate]].
      - intros [(A & _)|(_ & _ & A & _)]; contradiction.
      - intros (_ & A & _). contradiction. }
  assert (RE : reachable troubles d p) by (apply B'; reflexivity). clear B'.
  assert (DP : d1 p = d p). { destruct (F' p) as [R|(_ & _ & R)]; [exact R|]. apply above_neq in R. congruence. }
  destruct (is_ NoOpen p) eqn:O.
  { apply is_spec in O; [|auto]. injection E as <- <-. split; [intro r; destruct (F' r) as [R|(R1 & R2 & R3)]; auto 6|]. split; [split; [discriminate|]|split; [split; [discriminate|]|discriminate]].
    - intros [(A & _)|(_ & A & _)]; [contradiction|]. rewrite O in A. destruct A; discriminate.
    - intros (_ & _ & A). contradiction. }
  assert (O' : troubles p <> NoOpen) by (intro X; apply is_spec in X; [congruence|auto]). clear O.
  (* what create_copy comes to *)
  assert (G : forall o, (forall s, o = Some s <-> reads n s) -> n <> Fifo -> create_copy troubles d1 p o = (d', e) ->
     (forall r, d' r = d r \/ d r = None /\ d' r = Some ADir /\ above r p /\ ~ is_dir n \/ r = p /\ ~ is_dir n) /\
     (e = Done <-> passes troubles d p n) /\ (e = Hangs <-> blocks troubles d p n) /\ (e = Done -> ~ is_dir n -> copied_to d' p n)).
  { intros o RO NF C. apply create_copy_spec in C. destruct C as (C1 & C2 & C3 & C4). rewrite DP in C3. split; [|split; [|split]].
    - intro r. destruct (path_dec r p) as [->|N]; [auto|]. rewrite (C1 r N). destruct (F' r) as [R|(R1 & R2 & R3)]; auto 6.
    - rewrite C3. split.
      + intros (A1 & A2 & A3 & s & A4). right. split; [exact D|]. split.
        { destruct (troubles p) eqn:T; auto; try contradiction; try congruence; exfalso; eapply A2; reflexivity. }
        split; [exact RE|]. split; [exists s; apply RO, A4|exact A3].
      + intros [(A & _)|(_ & A1 & _ & (s & A2) & A3)]; [contradiction|]. split; [destruct A1; congruence|]. split; [intro; destruct A1; congruence|]. split; [exact A3|]. exists s. apply RO, A2.
    - split; [intro; contradiction|]. intros (A & _). contradiction.
    - intros A _. destruct (proj1 C3 A) as (_ & _ & _ & s & S). exists s. split; [apply RO, S|]. apply C4; assumption. }
  assert (FR : forall r, d1 r = d r \/ d r = None /\ d1 r = Some ADir /\ above r p /\ ~ is_dir n \/ r = p /\ ~ is_dir n).
  { intro r. destruct (F' r) as [R|(R1 & R2 & R3)]; auto 6. }
  destruct n as [s| |[| |s]|l].
  - apply (G (Some s)); [|discriminate|exact E]. intro s0. split; [intro X; injection X as ->; left; reflexivity|]. intros [X|X]; [congruence|discriminate].
  - injection E as <- <-. split; [exact FR|]. split; [split; [discriminate|]|split; [split; [|reflexivity]|discriminate]].
    + intros [(A & _)|(_ & _ & _ & (s & [A|A]) & _)]; [contradiction|discriminate|discriminate].
    + intros _. split; [reflexivity|]. split; [exact RE|exact O'].
  - injection E as <- <-. split; [exact FR|]. split; [split; [discriminate|]|split; [split; [discriminate|]|discriminate]].
    + intros [(A & _)|(_ & _ & _ & (s & [A|A]) & _)]; [contradiction|discriminate|discriminate].
    + intros (A & _). discriminate.
  - apply (G None); [|discriminate|exact E]. intro s0. split; [discriminate|]. intros [X|X]; discriminate.
  - apply (G (Some s)); [|discriminate|exact E]. intro s0. split; [intro X; injection X as ->; right; reflexivity|]. intros [X|X]; [discriminate|congruence].
  - exfalso. apply D. eexists. reflexivity.
Qed.

(* ---- The walk as a list of visits ---- *)
Fixpoint visits (p : path) (n : node) {struct n} : list (path * node) :=
  (p, n) :: match n with
            | Dir l => (fix entries l := match l with [] => [] | (x, n) :: l => visits (p ++ [x]) n ++ entries l end) l
            | _ => []
            end.
Fixpoint entry_visits (p : path) (l : list (string * node)) : list (path * node) :=
  match l with [] => [] | (x, n) :: l => visits (p ++ [x]) n ++ entry_visits p l end.
Lemma visits_eq p n : visits p n = (p, n) :: match n with Dir l => entry_visits p l | _ => [] end.
Proof. destruct n as [| | |l]; try reflexivity. cbn [visits]. f_equal. induction l as [|[x n] l IH]; [reflexivity|]. cbn [entry_visits]. rewrite IH. reflexivity. Qed.
Fixpoint run (d : dir) (l : list (path * node)) : dir * ended :=
  match l with [] => (d, Done) | (p, n) :: l => match visit d p n with (d, Done) => run d l | r => r end end.
Lemma run_app l1 : forall d l2, run d (l1 ++ l2) = match run d l1 with (d, Done) => run d l2 | r => r end.
Proof. induction l1 as [|[p n] l1 IH]; intros d l2; cbn [run app]; [reflexivity|]. destruct (visit d p n) as [d1 []]; [apply IH|reflexivity|reflexivity]. Qed.

Lemma node_rect' (P : node -> Prop) : (forall n, ~ is_dir n -> P n) -> (forall l, (forall x n, In (x, n) l -> P n) -> P (Dir l)) -> forall n, P n.
Proof.
  intros H1 H2. fix IH 1. intros [s| |t|l].
  - apply H1. intros (l & A). discriminate.
  - apply H1. intros (l & A). discriminate.
  - apply H1. intros (l & A). discriminate.
  - apply H2. induction l as [|[y m] l IL]; [intros x n []|]. intros x n [A|A]; [injection A as <- <-; apply IH|eapply IL; exact A].
Qed.
Lemma walk_run n : forall d p, walk d p n = run d (visits p n).
Proof.
  induction n as [n N|l IH] using node_rect'; intros d p.
  - rewrite visits_eq. assert (X : match n with Dir l => entry_visits p l | _ => [] end = []) by (destruct n; try reflexivity; exfalso; apply N; eexists; reflexivity).
    rewrite X. cbn [run]. rewrite visit_leaf by exact N. transitivity (copy_node d p n).
    + destruct n; try reflexivity. exfalso. apply N. eexists. reflexivity.
    + destruct (copy_node d p n) as [d1 []]; reflexivity.
  - rewrite visits_eq. cbn [OsModel.walk run visit]. destruct (is_ NoList p); [reflexivity|]. revert d.
    induction l as [|[x n] l IL]; intro d; cbn [entry_visits run]; [reflexivity|]. rewrite run_app, (IH x n (or_introl eq_refl)).
    destruct (run d (visits (p ++ [x]) n)) as [d1 []]; try reflexivity. apply IL. intros y m A. apply (IH y m (or_intror A)).
Qed.

Lemma in_entry_visits l p q m : In (q, m) (entry_visits p l) <-> exists x n, In (x, n) l /\ In (q, m) (visits (p ++ [x]) n).
Proof.
  induction l as [|[x n] l IH]; cbn [entry_visits In]; [split; [intros []|intros (? & ? & [] & _)]|]. rewrite in_app_iff, IH. split.
  - intros [A|(y & k & A & B)]; [exists x, n; auto|exists y, k; auto].
  - intros (y & k & [A|A] & B); [injection A as <- <-; auto|right; exists y, k; auto].
Qed.
Lemma in_visits n : forall p q m, In (q, m) (visits p n) <-> exists r, q = p ++ r /\ has n r m.
Proof.
  induction n as [n N|l IH] using node_rect'; intros p q m; rewrite visits_eq.
  - assert (X : match n with Dir l => entry_visits p l | _ => [] end = []) by (destruct n; try reflexivity; exfalso; apply N; eexists; reflexivity). rewrite X. cbn [In]. split.
    + intros [A|[]]. injection A as <- <-. exists []. rewrite app_nil_r. split; [reflexivity|constructor].
    + intros (r & -> & H). inversion H; subst; [rewrite app_nil_r; auto|]. exfalso. apply N. eexists. reflexivity.
  - cbn [In]. rewrite in_entry_visits. split.
    + intros [A|(x & n & A & B)].
      * injection A as <- <-. exists []. rewrite app_nil_r. split; [reflexivity|constructor].
      * apply (IH x n A) in B. destruct B as (r & -> & H). exists (x :: r). rewrite <- app_assoc. split; [reflexivity|]. econstructor; eassumption.
    + intros (r & -> & H). inversion H; subst; [rewrite app_nil_r; auto|]. right. exists x, t. split; [assumption|]. apply (IH x t); [assumption|]. eexists. rewrite <- app_assoc. split; [reflexivity|assumption].
Qed.

(* ---- Order ---- *)
Lemma compare_trans x y z : lt x y -> lt y z -> lt x z.
Proof.
  unfold lt. revert y z. induction x as [|a x IH]; intros [|b y] [|c z]; cbn [String.compare]; try congruence.
  unfold Ascii.compare. destruct (N.compare (N_of_ascii a) (N_of_ascii b)) eqn:E1; try congruence;
  destruct (N.compare (N_of_ascii b) (N_of_ascii c)) eqn:E2; try congruence;
  intros H1 H2; rewrite ?N.compare_eq_iff, ?N.compare_lt_iff in *.
  - rewrite E1, E2, N.compare_refl. eapply IH; eassumption.
  - rewrite E1. rewrite (proj2 (N.compare_lt_iff _ _) E2). reflexivity.
  - rewrite <- E2. rewrite (proj2 (N.compare_lt_iff _ _) E1). reflexivity.
  - rewrite (proj2 (N.compare_lt_iff _ _)); [reflexivity|]. eapply N.lt_trans; eassumption.
Qed.
Lemma lt_irrefl x : ~ lt x x.
Proof. unfold lt. induction x as [|a x IH]; cbn [String.compare]; [discriminate|]. unfold Ascii.compare. rewrite N.compare_refl. exact IH. Qed.

(* ---- Visits that do not hinder each other ---- *)
Definition consistent (l : list (path * node)) : Prop :=
  NoDup (map fst l) /\ (forall q n q' n', In (q, n) l -> In (q', n') l -> above q q' -> is_dir n) /\ (forall q n, In (q, n) l -> q <> [] \/ is_dir n).
Definition frame (l : list (path * node)) (d d1 : dir) : Prop :=
  forall r, (exists n, In (r, n) l /\ ~ is_dir n) \/ d1 r = d r \/ d r = None /\ d1 r = Some ADir /\ exists q n, In (q, n) l /\ ~ is_dir n /\ above r q.
Lemma nodup_app_l {A} (l1 l2 : list A) : NoDup (l1 ++ l2) -> NoDup l1.
Proof. induction l1 as [|x l1 IH]; cbn; intro N; [constructor|]. inversion N; subst. constructor; [intro I1; apply H1, in_or_app; auto|auto]. Qed.
Lemma consistent_app l1 l2 : consistent (l1 ++ l2) -> consistent l1.
Proof.
  intros (A & B & C). split; [|split].
  - rewrite map_app in A. apply nodup_app_l in A. exact A.
  - intros q n q' n' I1 I2. apply (B q n q' n'); apply in_or_app; auto.
  - intros q n I1. apply (C q n), in_or_app. auto.
Qed.
Lemma transfer l p n d d1 : frame l d d1 -> (forall m, ~ In (p, m) l) -> (forall q m, In (q, m) l -> above q p -> is_dir m) ->
  (~ is_dir n -> forall q m, In (q, m) l -> ~ is_dir m -> ~ above p q) ->
  (passes troubles d1 p n <-> passes troubles d p n) /\ (blocks troubles d1 p n <-> blocks troubles d p n).
Proof.
  intros F N A B.
  assert (R : reachable troubles d1 p <-> reachable troubles d p).
  { assert (G : forall q s, above q p -> (d1 q = Some (AFile s) <-> d q = Some (AFile s))).
    { intros q s Q. destruct (F q) as [(m & I1 & D)|[E|(E1 & E2 & _)]]; [exfalso; apply D; eapply A; eassumption|rewrite E; tauto|split; congruence]. }
    split; intros (T & H); (split; [exact T|]); intros q s Q X; apply (H q s Q), (G q s Q), X. }
  assert (P : ~ is_dir n -> (d1 p = Some ADir <-> d p = Some ADir)).
  { intro D. destruct (F p) as [(m & I1 & _)|[E|(_ & _ & q & m & I1 & D1 & Q)]]; [exfalso; eapply N; exact I1|rewrite E; tauto|exfalso; eapply B; eassumption]. }
  split.
  - unfold passes. split; (intros [H|(D & H1 & H2 & H3 & H4)]; [left; exact H|right]); (split; [exact D|]); (split; [exact H1|]); (split; [apply R, H2|]); (split; [exact H3|]); intro X; apply H4, P; assumption.
  - unfold blocks. rewrite R. tauto.
Qed.
Lemma split_consistent l1 p n l2 : consistent (l1 ++ (p, n) :: l2) ->
  (forall m, ~ In (p, m) l1) /\ (forall q m, In (q, m) l1 -> above q p -> is_dir m) /\ (~ is_dir n -> forall q m, In (q, m) l1 -> ~ is_dir m -> ~ above p q).
Proof.
  intros (A & B & _). assert (IP : In (p, n) (l1 ++ (p, n) :: l2)) by (apply in_or_app; right; left; reflexivity). split; [|split].
  - intros m I1. rewrite map_app in A. cbn in A. apply NoDup_remove_2 in A. apply A, in_or_app. left. apply (in_map fst) in I1. exact I1.
  - intros q m I1 Q. eapply B; [|exact IP|exact Q]. apply in_or_app. auto.
  - intros D q m I1 _ Q. apply D. eapply B; [exact IP| |exact Q]. apply in_or_app. left. exact I1.
Qed.
Lemma run_done l : consistent l -> forall d d1, run d l = (d1, Done) ->
  frame l d d1 /\ (forall q n, In (q, n) l -> passes troubles d q n) /\ (forall q n, In (q, n) l -> ~ is_dir n -> copied_to d1 q n).
Proof.
  induction l as [|[p n] l IH] using rev_ind; intros C d d1 E.
  - cbn in E. injection E as <-. split; [intro r; auto|]. split; intros q n [].
  - rewrite run_app in E. destruct (run d l) as [d0 e] eqn:E0. destruct e; try discriminate.
    destruct (IH (consistent_app _ _ C) d d0 E0) as (F & P & K). destruct (split_consistent _ _ _ _ C) as (S1 & S2 & S3).
    cbn [run] in E. destruct (visit d0 p n) as [d2 e2] eqn:V. destruct e2; try discriminate. injection E as ->.
    apply visit_spec in V; [|apply (proj2 (proj2 C) p n), in_or_app; right; left; reflexivity]. destruct V as (V1 & V2 & _ & V4).
    destruct (transfer l p n d d0 F S1 S2 S3) as (T & _). split; [|split].
    + intro r. destruct (F r) as [(m & I1 & D)|FR]; [left; exists m; split; [apply in_or_app; auto|exact D]|].
      destruct (V1 r) as [V|[(X1 & X2 & X3 & X4)|(-> & X)]].
      * right. rewrite V. destruct FR as [FR|(FR1 & FR2 & q & m & FR3 & FR4)]; [auto|]. right. split; [exact FR1|]. split; [exact FR2|]. exists q, m. split; [apply in_or_app; auto|exact FR4].
      * right. right. destruct FR as [FR|(FR1 & FR2 & _)]; [|congruence]. split; [congruence|]. split; [exact X2|]. exists p, n. split; [apply in_or_app; right; left; reflexivity|auto].
      * left. exists n. split; [apply in_or_app; right; left; reflexivity|exact X].
    + intros q m I1. apply in_app_or in I1. destruct I1 as [I1|[I1|[]]]; [apply P, I1|]. injection I1 as <- <-. apply T, V2. reflexivity.
    + intros q m I1 D. apply in_app_or in I1. destruct I1 as [I1|[I1|[]]]; [|injection I1 as <- <-; apply V4; [reflexivity|exact D]].
      destruct (K q m I1 D) as (s & R & Q). exists s. split; [exact R|]. destruct (V1 q) as [V|[(X1 & _)|(-> & X)]]; [congruence|congruence|]. exfalso. eapply S1. exact I1.
Qed.
Lemma run_passes l : consistent l -> forall d, (forall q n, In (q, n) l -> passes troubles d q n) -> exists d1, run d l = (d1, Done).
Proof.
  induction l as [|[p n] l IH] using rev_ind; intros C d P; [eexists; reflexivity|].
  destruct (IH (consistent_app _ _ C) d) as (d1 & E). { intros q m I1. apply P, in_or_app. auto. }
  rewrite run_app, E. cbn [run]. destruct (visit d1 p n) as [d2 e2] eqn:V.
  apply visit_spec in V; [|apply (proj2 (proj2 C) p n), in_or_app; right; left; reflexivity]. destruct V as (_ & V2 & _).
  destruct (run_done l (consistent_app _ _ C) d d1 E) as (F & _). destruct (split_consistent _ _ _ _ C) as (S1 & S2 & S3).
  destruct (transfer l p n d d1 F S1 S2 S3) as (T & _). assert (X : e2 = Done) by (apply V2, T, P, in_or_app; right; left; reflexivity). subst. eexists. reflexivity.
Qed.
Lemma run_stops l : consistent l -> forall d d' e, run d l = (d', e) -> e <> Done ->
  exists l1 p n l2, l = l1 ++ (p, n) :: l2 /\ (forall q m, In (q, m) l1 -> passes troubles d q m) /\ ~ passes troubles d p n /\ (e = Hangs <-> blocks troubles d p n) /\
    (forall q m, In (q, m) l1 -> ~ is_dir m -> copied_to d' q m) /\
    (forall r, (exists m, In (r, m) l1 /\ ~ is_dir m) \/ r = p /\ ~ is_dir n \/ d' r = d r \/ d r = None /\ d' r = Some ADir /\ exists q m, (In (q, m) l1 \/ (q, m) = (p, n)) /\ ~ is_dir m /\ above r q).
Proof.
  intros C d d' e E N.
  assert (X : exists l1 p n l2 d1, l = l1 ++ (p, n) :: l2 /\ run d l1 = (d1, Done) /\ visit d1 p n = (d', e)).
  { clear C. revert d E. induction l as [|[p n] l IH]; intros d E; cbn [run] in E; [congruence|]. destruct (visit d p n) as [d1 e1] eqn:V. destruct e1.
    - destruct (IH d1 E) as (l1 & q & m & l2 & d2 & -> & R & W). exists ((p, n) :: l1), q, m, l2, d2. split; [reflexivity|]. split; [cbn [run]; rewrite V; exact R|exact W].
    - exists [], p, n, l, d. split; [reflexivity|]. split; [reflexivity|congruence].
    - exists [], p, n, l, d. split; [reflexivity|]. split; [reflexivity|congruence]. }
  destruct X as (l1 & p & n & l2 & d1 & -> & R & V). exists l1, p, n, l2. split; [reflexivity|].
  destruct (run_done l1 (consistent_app _ _ C) d d1 R) as (F & P & K). destruct (split_consistent _ _ _ _ C) as (S1 & S2 & S3). destruct (transfer l1 p n d d1 F S1 S2 S3) as (T & T').
  apply visit_spec in V; [|apply (proj2 (proj2 C) p n), in_or_app; right; left; reflexivity]. destruct V as (V1 & V2 & V3 & V4).
  split; [exact P|]. split; [intro Q; apply N, V2, T, Q|]. split; [rewrite V3; exact T'|]. split.
  - intros q m I1 D. destruct (K q m I1 D) as (s & Q1 & Q2). exists s. split; [exact Q1|]. destruct (V1 q) as [W|[(W & _)|(-> & _)]]; [congruence|congruence|]. exfalso. eapply S1. exact I1.
  - intro r. destruct (F r) as [FR|FR]; [auto|]. destruct (V1 r) as [W|[(W1 & W2 & W3 & W4)|W]]; [| |auto].
    + destruct FR as [FR|(FR1 & FR2 & q & m & FR3 & FR4)]; [right; right; left; congruence|]. right. right. right. split; [exact FR1|]. split; [congruence|]. exists q, m. auto.
    + right. right. right. destruct FR as [FR|(FR1 & FR2 & _)]; [|congruence]. split; [congruence|]. split; [exact W2|]. exists p, n. auto.
Qed.

(* ---- Trees give such visits ---- *)
Definition prec (p q : path) : Prop := above p q \/ earlier p q.
Lemma earlier_asym p q : earlier p q -> ~ earlier q p.
Proof.
  intro H. induction H as [x y p q L|x p q H IH]; intro K; inversion K; subst.
  - eapply lt_irrefl, compare_trans; eassumption.
  - eapply lt_irrefl; eassumption.
  - eapply lt_irrefl; eassumption.
  - contradiction.
Qed.
Lemma above_earlier p q : above p q -> ~ earlier p q /\ ~ earlier q p.
Proof.
  intros (x & r & ->). induction p as [|y p IH]; cbn; split; intro K; inversion K; subst; try (eapply lt_irrefl; eassumption); destruct IH; contradiction.
Qed.
Lemma above_asym p q : above p q -> ~ above q p.
Proof. intros (x & r & ->) (y & s & E). apply (f_equal (@List.length _)) in E. repeat (rewrite !app_length in E; cbn in E). lia. Qed.
Lemma prec_asym p q : prec p q -> ~ prec q p.
Proof. intros [A|A] [B|B]; [eapply above_asym; eassumption|apply above_earlier in A; destruct A; contradiction|apply above_earlier in B; destruct B; contradiction|eapply earlier_asym; eassumption]. Qed.
Lemma earlier_app p x y a b : lt x y -> earlier (p ++ x :: a) (p ++ y :: b).
Proof. intro L. induction p; cbn; constructor; assumption. Qed.
Lemma sorted_app {A} (R : A -> A -> Prop) l1 l2 : StronglySorted R l1 -> StronglySorted R l2 -> (forall x y, In x l1 -> In y l2 -> R x y) -> StronglySorted R (l1 ++ l2).
Proof.
  intros S1 S2 H. induction S1 as [|x l1 S1 IH F]; cbn; [exact S2|]. constructor.
  - apply IH. intros y z I1. apply H. right. exact I1.
  - apply Forall_app. split; [exact F|]. apply Forall_forall. intros y I1. apply H; [left; reflexivity|exact I1].
Qed.
Lemma visits_under n p q m : In (q, m) (visits p n) -> exists r, q = p ++ r.
Proof. intro I1. apply in_visits in I1. destruct I1 as (r & -> & _). eexists. reflexivity. Qed.
Lemma visits_sorted n : ordered n -> forall p, StronglySorted (fun a b => prec (fst a) (fst b)) (visits p n).
Proof.
  intro O. induction O as [n N|l SL _ IH]; intro p; rewrite visits_eq.
  - assert (X : match n with Dir l => entry_visits p l | _ => [] end = []) by (destruct n; try reflexivity; exfalso; apply N; eexists; reflexivity). rewrite X. repeat constructor.
  - constructor.
    + induction SL as [|[x n] l SL IL F]; cbn [entry_visits]; [constructor|]. apply sorted_app.
      * apply (IH x n). left. reflexivity.
      * apply IL. intros y m I1. apply (IH y m). right. exact I1.
      * intros [q m] [q' m'] I1 I2. apply visits_under in I1. destruct I1 as (r & ->). apply in_entry_visits in I2. destruct I2 as (y & k & I2 & I3). apply visits_under in I3. destruct I3 as (r' & ->).
        rewrite Forall_forall in F. specialize (F _ I2). cbn in F. right. cbn. rewrite <- !app_assoc. apply earlier_app, F.
    + apply Forall_forall. intros [q m] I1. apply in_entry_visits in I1. destruct I1 as (x & k & _ & I1). apply visits_under in I1. destruct I1 as (r & ->). left. cbn. exists x, r. rewrite <- app_assoc. reflexivity.
Qed.
Lemma sorted_split {A} (R : A -> A -> Prop) l1 x l2 : StronglySorted R (l1 ++ x :: l2) -> (forall y, In y l1 -> R y x) /\ (forall y, In y l2 -> R x y).
Proof.
  induction l1 as [|z l1 IH]; cbn; intro S; inversion S; subst.
  - split; [intros y []|]. apply Forall_forall. assumption.
  - destruct (IH H1) as [B C]. split; [|exact C]. intros y [<-|I1]; [|auto]. rewrite Forall_forall in H2. apply H2, in_or_app. right. left. reflexivity.
Qed.
Lemma has_dir t p x r n : has t (p ++ x :: r) n -> exists l, has t p (Dir l).
Proof.
  revert t. induction p as [|y p IH]; cbn; intros t H; inversion H; subst; [eexists; constructor|]. destruct (IH _ H5) as (l' & K). exists l'. econstructor; eassumption.
Qed.
Lemma visits_nodup n p : ordered n -> NoDup (map fst (visits p n)).
Proof.
  intro O. assert (S := visits_sorted n O p). induction S as [|[q m] l S IH F]; cbn; constructor; [|exact IH]. intro I1. apply in_map_iff in I1. destruct I1 as ([q' m'] & E & I1). cbn in E. subst.
  rewrite Forall_forall in F. specialize (F _ I1). cbn in F. eapply prec_asym; exact F.
Qed.
Lemma nodup_fst {A B} (l : list (A * B)) a b c : NoDup (map fst l) -> In (a, b) l -> In (a, c) l -> b = c.
Proof.
  induction l as [|[x y] l IH]; cbn; intro N; [intros []|]. intros [E|I1] [E'|I2]; inversion N; subst.
  - congruence.
  - injection E as <- <-. exfalso. apply H1. apply (in_map fst) in I2. exact I2.
  - injection E' as <- <-. exfalso. apply H1. apply (in_map fst) in I1. exact I1.
  - auto.
Qed.
Lemma in_visits_root t p n : In (p, n) (visits [] t) <-> has t p n.
Proof. rewrite in_visits. cbn. split; [intros (r & -> & H); exact H|intro H; eexists; eauto]. Qed.
Lemma has_unique t p n m : ordered t -> has t p n -> has t p m -> n = m.
Proof. intros O H K. apply in_visits_root in H, K. eapply nodup_fst; [|exact H|exact K]. apply visits_nodup, O. Qed.
Lemma visits_consistent t : ordered t -> is_dir t -> consistent (visits [] t).
Proof.
  intros O D. split; [apply visits_nodup, O|]. split.
  - intros q n q' n' I1 I2 (x & r & ->). apply in_visits_root in I1, I2. apply has_dir in I2. destruct I2 as (l & I2). rewrite (has_unique t q n (Dir l) O I1 I2). eexists. reflexivity.
  - intros q n I1. destruct q; [right|left; discriminate]. apply in_visits_root in I1. inversion I1; subst. exact D.
Qed.
End Walk.

(* C32: what the grader sends to a runner while it holds the input. *)
From Coq Require Import String Ascii List Bool ZArith Lia.
From Verif Require Import GoStr InModel InSpec InProofs InGraderProofs PoolModel PoolProps GPoolModel GPoolProps.
Import ListNotations.
Local Open Scope string_scope.

(* grader/input.go:276-291: Transmit, after the headers: io.Copy reads the archive a
   few bytes at a time, until there are no more, and writes them, while the others
   go on (evs: what they do).  out is what has been sent from pos on.  The archive
   is read by its path here, not through the descriptor that was opened. *)
Inductive sends (digest : string -> string) (root a : path) : sys -> nat -> string -> list gevent -> sys -> Prop :=
| sends_end : forall s pos c, disk s a = Some (File c) -> String.length c <= pos -> sends digest root a s pos "" [] s
| sends_some : forall s pos c n out evs s', disk s a = Some (File c) -> pos < String.length c -> 0 < n ->
    sends digest root a s (pos + String.length (substring pos n c)) out evs s' -> sends digest root a s pos (substring pos n c ++ out) evs s'
| sends_other : forall s e s1 pos out evs s', gstep digest root s e s1 -> sends digest root a s1 pos out evs s' -> sends digest root a s pos out (e :: evs) s'.

Lemma sends_gsteps digest root a s pos out evs s' : sends digest root a s pos out evs s' -> gsteps digest root s evs s'.
Proof. induction 1; auto; econstructor; eauto. Qed.

Lemma substring_split c : forall pos n, (substring pos (String.length (substring pos n c)) c = substring pos n c) /\
  forall k, pos <= String.length c -> (substring pos n c ++ substring (pos + String.length (substring pos n c)) k c)%string = substring pos (String.length (substring pos n c) + k) c.
Proof.
  induction c as [|x c IH]; intros [|pos] n; try (destruct n; cbn; split; auto; fail).
  - destruct n as [|n]; cbn; auto. destruct (IH 0 n) as [A B]. cbn in *. split; [f_equal; exact A|]. intros k _. f_equal. apply B. lia.
  - cbn. destruct (IH pos n) as [A B]. split; [exact A|]. intros k H. apply B. lia.
Qed.
Definition suffix (pos : nat) (c : string) : string := substring pos (String.length c - pos) c.
Lemma substring_len c : forall pos n, pos <= String.length c -> String.length (substring pos n c) = Nat.min n (String.length c - pos).
Proof.
  induction c as [|x c IH]; intros [|pos] n H; cbn in *; try (destruct n; reflexivity); try lia.
  - destruct n; cbn; [auto|]. rewrite (IH 0) by lia. f_equal. f_equal. lia.
  - apply IH. lia.
Qed.
Lemma substring_all c : substring 0 (String.length c) c = c.
Proof. induction c; cbn; congruence. Qed.
Lemma substring_none c : forall pos n, String.length c <= pos -> substring pos n c = "".
Proof. induction c as [|x c IH]; intros [|pos] n H; cbn in *; try (destruct n; auto; fail); try lia. apply IH. lia. Qed.

Lemma sends_held digest root L s pos out evs s' hash : sends digest root (archive_path root hash) s pos out evs s' -> 2 <= L -> Forall (gfine_event L) evs ->
  forall id l c, ginv root L s -> refs s hash = Some l -> In id l -> ~ In (GRelease hash id) evs -> disk s (archive_path root hash) = Some (File c) -> pos <= String.length c -> out = suffix pos c.
Proof.
  intros H HL. induction H as [s pos c0 E HP|s pos c0 n out evs s' E HP HN H IH|s e s1 pos out evs s' E H IH]; intros F id l c I HR HI NR EC LP.
  - rewrite E in EC. injection EC as ->. symmetry. apply substring_none. auto.
  - rewrite E in EC. injection EC as ->. assert (LE := substring_len c pos n LP). rewrite (IH F id l c I HR HI NR E) by lia. unfold suffix.
    rewrite (proj2 (substring_split c pos n)) by lia. f_equal. lia.
  - assert (Fe := Forall_inv F). apply Forall_inv_tail in F. assert (NE : e <> GRelease hash id) by (intros ->; apply NR; left; auto).
    destruct (gstep_intact digest root L HL s e s1 hash id l I E HR HI NE) as (A & l1 & R1 & I1).
    eapply IH; [exact F|eapply gstep_inv; eauto|exact R1|exact I1| | |exact LP].
    + intros X. apply NR. right. auto.
    + rewrite A; [exact EC|]. apply belongs_a.
Qed.

(* What is sent while the input is held, whatever happens to others meanwhile and
   however the reading is cut, is the archive that Verify accepted when the
   reference was obtained: as long, and with the hash that the headers announce. *)
Theorem C32_transmit_grader : forall digest root L s0 evs1 s evs2 s' hash id l out size h len, 2 <= L ->
  running s0 = [] -> cache s0 = [] -> (forall k src, In (GBegin k src) (evs1 ++ evs2) -> String.length k = L) ->
  gsteps digest root s0 evs1 s -> refs s hash = Some l -> In id l ->
  grader_Verify digest (archive_path root hash) (disk s) = Some (size, h, len) ->
  sends digest root (archive_path root hash) s 0 out evs2 s' -> ~ In (GRelease hash id) evs2 ->
  disk s (archive_path root hash) = Some (File out) /\ digest out = h /\ Z.of_nat (String.length out) = size.
Proof.
  intros digest root L s0 evs1 s evs2 s' hash id l out size h len HL R0 C0 HF S1 HR HI HV HS NR.
  assert (F : Forall (gfine_event L) (evs1 ++ evs2)) by (apply Forall_forall; intros e X; destruct e; cbn; auto; eapply HF; exact X).
  apply Forall_app in F. destruct F as [F1 F2].
  assert (I : ginv root L s).
  { assert (I0 : ginv root L s0) by (constructor; rewrite R0, ?C0; cbn; [constructor|tauto|tauto]). clear - I0 F1 S1.
    induction S1 as [|s e s1 es s2 H HS IH]; [auto|]. assert (Fe := Forall_inv F1). apply Forall_inv_tail in F1. apply IH; auto. eapply gstep_inv; eauto. }
  unfold grader_Verify in HV. destruct (disk s (archive_path root hash)) as [[c|]|] eqn:EC; try discriminate.
  assert (EO : out = c). { rewrite (sends_held _ _ _ _ _ _ _ _ _ HS HL F2 id l c I HR HI NR EC) by lia. unfold suffix. rewrite Nat.sub_0_r. apply substring_all. }
  subst out. split; [auto|]. destruct (disk s (with_ext _ ".sha1")) as [[w|]|]; try discriminate. destruct (first_word w) as [x|]; try discriminate.
  destruct (String.eqb_spec x (digest c)); [|discriminate]. destruct (disk s (with_ext _ ".len")) as [[y|]|]; try discriminate. destruct (first_line y) as [y1|]; try discriminate. destruct (ParseInt y1); [|discriminate].
  injection HV as <- <- <-. auto.
Qed.
Print Assumptions C32_transmit_grader.

(* ---- A case that meets the hypotheses ---- *)
(* "aabb" is held; three bytes are sent, then "aacc" begins to be looked up, then
   the others are sent. *)
Example gex_sends : exists evs1 s evs2 s', (forall k src, In (GBegin k src) (evs1 ++ evs2) -> String.length k = 4) /\ gsteps ex_sha1 [] ex_start evs1 s /\
  refs s "aabb" = Some [7] /\ grader_Verify ex_sha1 (archive_path [] "aabb") (disk s) = Some (7%Z, "bodyend", 5%Z) /\
  sends ex_sha1 [] (archive_path [] "aabb") s 0 "bodyend" evs2 s' /\ ~ In (GRelease "aabb" 7) evs2 /\ evs2 <> nil.
Proof.
  destruct (ex_run_gsteps ex_sha1 [] "aabb" 90 (gsource_add ex_sha1 (archive_path [] "aabb") gex_git) (disk ex_start) [] []) as (m & H).
  set (r := ex_run ex_sha1 90 _ _) in H.
  assert (R : exists z, fst r = Ret (Nil z)) by (eexists; vm_compute; reflexivity). destruct R as (z & R). rewrite R in H.
  set (s := {| disk := snd r; running := []; cache := [("aabb", [7])] |}).
  eexists ((GBegin "aabb" gex_git :: repeat (GOp "aabb") m) ++ [GGet "aabb" 7])%list, s, [GBegin "aacc" CachedArchive], _.
  assert (D : snd r ["aa"; "bb.tar.gz"] = Some (File "bodyend")) by (vm_compute; reflexivity).
  split; [|split; [|split; [|split; [|split; [|split]]]]].
  - intros k x X. cbn [In] in X. repeat match goal with Q : In _ (_ ++ _) |- _ => apply in_app_iff in Q; destruct Q as [Q|Q] | Q : In _ (_ :: _) |- _ => destruct Q as [Q|Q] | Q : In _ nil |- _ => destruct Q end; try discriminate;
      try (apply repeat_spec in X; discriminate); injection X as <- <-; reflexivity.
  - eapply gsteps_app; [eapply gsteps_cons; [apply gstep_miss; [reflexivity|intros (p & [])]|exact H]|]. eapply gsteps_cons; [eapply gstep_added with (z := z); [left; reflexivity|reflexivity|intros ? ? []]|]. constructor.
  - reflexivity.
  - vm_compute. reflexivity.
  - apply (sends_some _ _ _ s 0 "bodyend" 3 "yend"); [exact D|cbn; lia|lia|]. eapply sends_other; [apply gstep_miss; [reflexivity|intros (p & [])]|].
    apply (sends_some _ _ _ _ 3 "bodyend" 4 ""); [exact D|cbn; lia|lia|]. eapply sends_end; [exact D|cbn; lia].
  - intros [X|[]]. discriminate.
  - discriminate.
Qed.

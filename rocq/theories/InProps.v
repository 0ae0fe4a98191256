(* C31, C34: inputs on disk survive crashes and stay where they belong. *)
From Coq Require Import String Ascii List Bool ZArith Lia.
From Verif Require Import GoStr InModel InSpec InProofs InRunnerProofs InReload InGraderProofs.
Import ListNotations.
Local Open Scope string_scope.
Local Open Scope list_scope.

(* A disk with nothing on it. *)
Definition empty_fs : fs := fun q => match q with [] => Some Dir | _ => None end.
Definition hex0 : string := "0000000000000000000000000000000000000000".
Definition entries (files : list (string * string)) : list entry := map (fun x => EFile (fst x) (snd x)) files.

(* ---- C31: the runner ---- *)
(* The process dies while the manager adds an input the disk does not hold (or
   holds in a damaged state): if the next process accepts what is on the disk,
   the directory has exactly the files of the archive. *)
Theorem C31_runner_crash : forall digest settings_ok d n stream readable es clean streamHash os f0 f size,
  (forall e, In e es -> inside (name_of e)) -> ~ In Fails (firstn 3 os) ->
  exec (runner_add digest settings_ok (d ++ [n]) stream readable es clean streamHash) os f0 = Crashed f ->
  runner_Verify digest settings_ok (d ++ [n]) f = Some size ->
  stored f (d ++ [n]) es.
Proof.
  intros digest settings_ok d n stream readable es clean streamHash os f0 f size HI HO HE HV. unfold runner_add, add in HE. cbn [exec] in HE.
  destruct (runner_Verify digest settings_ok (d ++ [n]) f0) as [z|] eqn:E0; [discriminate|].
  destruct (delete_exec d n (persist_tar digest settings_ok (d ++ [n]) stream readable es clean streamHash) os f0 HO) as [(f' & E & S & _)|(os' & f' & E & G & _)]; rewrite E in HE.
  - injection HE as <-. rewrite (verify_sub _ _ _ _ _ _ S HV) in E0. discriminate.
  - pose proof (persist_safe digest settings_ok d n true stream readable es clean streamHash f' HI G os') as X. rewrite HE in X.
    destruct X as [X|X]; [discriminate| |apply X]. rewrite (absent_verify digest settings_ok _ _ _ X) in HV. discriminate.
Qed.
Print Assumptions C31_runner_crash.

(* Nothing crashes: the directory has the files of the archive, the archive was
   whole and had the hash it was announced with, and the size is right. *)
Theorem C31_runner_finish : forall digest settings_ok d n stream readable es clean streamHash os f0 f s,
  (forall e, In e es -> inside (name_of e)) -> ~ In Fails (firstn 3 os) -> runner_Verify digest settings_ok (d ++ [n]) f0 = None ->
  exec (runner_add digest settings_ok (d ++ [n]) stream readable es clean streamHash) os f0 = Finished (Nil s) f ->
  stored f (d ++ [n]) es /\ s = Some (total_size es) /\ streamHash = digest stream /\ readable = true /\ clean = true.
Proof.
  intros digest settings_ok d n stream readable es clean streamHash os f0 f s HI HO E0 HE. unfold runner_add, add in HE. cbn [exec] in HE. rewrite E0 in HE.
  destruct (delete_exec d n (persist_tar digest settings_ok (d ++ [n]) stream readable es clean streamHash) os f0 HO) as [(f' & E & S & _)|(os' & f' & E & G & _)]; rewrite E in HE; [discriminate|].
  pose proof (persist_safe digest settings_ok d n true stream readable es clean streamHash f' HI G os') as X. rewrite HE in X.
  destruct X as (A & [B _ _] & C); [discriminate|]. tauto.
Qed.
Print Assumptions C31_runner_finish.

(* Whatever was reported as stored is accepted again, with the same size, by the
   next process. *)
Theorem C31_runner_reload : forall digest settings_ok d n stream readable es clean streamHash os f0 f s,
  hex_digest digest -> segment n ->
  (forall e, In e es -> inside (name_of e)) -> (forall nm c, In (EFile nm c) es -> fit nm) -> NoDup (map (fun x => rel (fst x)) (files es)) ->
  ~ In Fails (firstn 3 os) -> runner_Verify digest settings_ok (d ++ [n]) f0 = None ->
  exec (runner_add digest settings_ok (d ++ [n]) stream readable es clean streamHash) os f0 = Finished (Nil s) f ->
  runner_Verify digest settings_ok (d ++ [n]) f = s.
Proof.
  intros digest settings_ok d n stream readable es clean streamHash os f0 f s HD HN HI HF ND HO E0 HE. unfold runner_add, add in HE. cbn [exec] in HE. rewrite E0 in HE.
  destruct (delete_exec d n (persist_tar digest settings_ok (d ++ [n]) stream readable es clean streamHash) os f0 HO) as [(f' & E & S & _)|(os' & f' & E & G & _)]; rewrite E in HE; [discriminate|].
  pose proof (persist_safe digest settings_ok d n true stream readable es clean streamHash f' HI G os') as X. rewrite HE in X.
  destruct X as (-> & B & _); [discriminate|]. eapply reload; eauto.
  intros [nm c] H. apply (HF nm c). unfold files in H. apply in_flat_map in H. destruct H as ([x|x k] & H & Hx); cbn in Hx; [tauto|]. destruct Hx as [Hx|[]]. injection Hx as -> ->. auto.
Qed.
Print Assumptions C31_runner_reload.

(* An error: the next process does not accept what is on the disk. *)
Theorem C31_runner_error : forall digest settings_ok d n stream readable es clean streamHash os f0 f,
  (forall e, In e es -> inside (name_of e)) -> ~ In Fails (firstn 3 os) ->
  exec (runner_add digest settings_ok (d ++ [n]) stream readable es clean streamHash) os f0 = Finished Err f ->
  runner_Verify digest settings_ok (d ++ [n]) f = None.
Proof.
  intros digest settings_ok d n stream readable es clean streamHash os f0 f HI HO HE. unfold runner_add, add in HE. cbn [exec] in HE.
  destruct (runner_Verify digest settings_ok (d ++ [n]) f0) as [z|] eqn:E0; [discriminate|].
  destruct (delete_exec d n (persist_tar digest settings_ok (d ++ [n]) stream readable es clean streamHash) os f0 HO) as [(f' & E & S & _)|(os' & f' & E & G & _)]; rewrite E in HE; [discriminate|].
  pose proof (persist_safe digest settings_ok d n true stream readable es clean streamHash f' HI G os') as X. rewrite HE in X. apply absent_verify. apply X. discriminate.
Qed.
Print Assumptions C31_runner_error.

(* An archive that does not end as it should, or whose hash is not the announced
   one, is never accepted, now or later. *)
Theorem C31_runner_rejects : forall digest settings_ok d n stream readable es clean streamHash os f0 r f,
  (forall e, In e es -> inside (name_of e)) -> ~ In Fails (firstn 3 os) -> runner_Verify digest settings_ok (d ++ [n]) f0 = None ->
  readable && clean && (streamHash =? digest stream) = false ->
  exec (runner_add digest settings_ok (d ++ [n]) stream readable es clean streamHash) os f0 = Finished r f ->
  r = Err /\ runner_Verify digest settings_ok (d ++ [n]) f = None.
Proof.
  intros digest settings_ok d n stream readable es clean streamHash os f0 r f HI HO E0 HB HE. destruct r as [|s].
  - split; [auto|]. eapply C31_runner_error; eauto.
  - destruct (C31_runner_finish _ _ _ _ _ _ _ _ _ _ _ _ _ HI HO E0 HE) as (_ & _ & A & B & C). subst. rewrite String.eqb_refl in HB. discriminate.
Qed.
Print Assumptions C31_runner_rejects.

(* A crash while an input is deleted (for instance when it is evicted): what is
   still accepted is untouched. *)
Theorem C31_runner_delete : forall digest settings_ok d n a os f0 f size,
  ~ In Fails (firstn 3 os) ->
  exec (runner_Delete (d ++ [n]) (Ret a)) os f0 = Crashed f -> runner_Verify digest settings_ok (d ++ [n]) f = Some size ->
  forall q, below (d ++ [n]) q -> f q = f0 q.
Proof.
  intros digest settings_ok d n a os f0 f size HO HE HV q (r & ->).
  destruct (delete_exec d n (Ret a) os f0 HO) as [(f' & E & S & [N|N])|(os' & f' & E & _)]; rewrite E in HE; [| |discriminate]; injection HE as <-; [|apply N].
  unfold runner_Verify in HV. rewrite with_ext_snoc, N in HV. discriminate.
Qed.
Print Assumptions C31_runner_delete.

(* Delete and its errors: were the removal of the directory to fail (the error is
   ignored), a crash right after the new .sha1 file is created leaves a directory
   that is accepted although none of its files was checked. *)
Theorem C31_failed_delete_refuted : forall digest settings_ok stream es, settings_ok "{}" = true ->
  exists os f0 f, runner_Verify digest settings_ok ["in"] f0 = None /\
  exec (runner_add digest settings_ok ["in"] stream true es true (digest stream)) os f0 = Crashed f /\
  f ["in"; "stale"] = Some (File "?") /\ runner_Verify digest settings_ok ["in"] f = Some 0%Z.
Proof.
  intros digest settings_ok stream es HS. exists [Works; Works; Fails; Works; Works].
  exists (set (set (set empty_fs ["in"] (Some Dir)) ["in"; "settings.json"] (Some (File "{}"))) ["in"; "stale"] (Some (File "?"))).
  destruct es as [|[x|x c] es]; eexists; (split; [reflexivity|]); (split; [cbn; rewrite ?String.eqb_refl; cbn; reflexivity|]).
  all: split; [reflexivity|]; cbv; rewrite HS; reflexivity.
Qed.
Print Assumptions C31_failed_delete_refuted.

(* ---- C31: an in-memory input persisted for a runner ---- *)
Lemma write_works q s ok fail os : forall f s0, f q = Some (File s0) ->
  exists f', exec (write q s ok fail) (repeat Works (String.length s) ++ os) f = exec ok os f' /\ f' q = Some (File (s0 ++ s)%string) /\ agree f' f q.
Proof.
  induction s as [|c s IH]; intros f s0 H; cbn [write String.length repeat app].
  - exists f. rewrite append_nil_r. split; [auto|]. split; [auto|]. intros r _. auto.
  - cbn [exec apply]. rewrite H. cbn [exec]. destruct (IH (set f q (Some (File (s0 ++ String c "")%string))) _ (set_same _ _ _)) as (f' & E & H' & A).
    exists f'. split; [exact E|]. rewrite append_assoc in H'. split; [exact H'|]. intros r Hr. rewrite (A r Hr). apply set_other. auto.
Qed.

(* It is not crash safe: with the settings first in the iteration order of the
   map, a crash after them leaves an input without its cases that is accepted. *)
Theorem C31_literal_runner_refuted : forall digest settings_ok, hex_digest digest -> settings_ok "{}" = true ->
  let input := [("settings.json", "{}"); ("cases/in/0.in", "1")] in
  exists os f, exec (literal_runner_add digest ["in"] input) os empty_fs = Crashed f /\
    runner_Verify digest settings_ok ["in"] f = Some 2%Z /\ ~ stored f ["in"] (entries input).
Proof.
  intros digest settings_ok HD HS input.
  assert (START : forall rest, exists G ok fl, exec (literal_runner_add digest ["in"] input) ([Works; Works; Works; Works; Works; Works; Works; Works; Works] ++ rest) empty_fs =
     exec (write ["in.sha1"] (sha1_line digest ["in"] "settings.json" "{}") ok fl) rest G /\ G ["in.sha1"] = Some (File "") /\
     (forall f, exec ok [] f = Crashed f) /\
     forall r, G ("in" :: r) = match r with [] => Some Dir | _ => if path_eqb ["settings.json"] r then Some (File "{}") else None end).
  { intros rest. eexists _, _, _. split; [reflexivity|]. split; [reflexivity|]. split; [reflexivity|].
    intros [|x r]; [reflexivity|]. destruct (path_eqb ["settings.json"] (x :: r)) eqn:EP.
    - apply path_eqb_spec in EP. rewrite <- EP. reflexivity.
    - assert (EP' : path_eqb ["in"; "settings.json"] ("in" :: x :: r) = false) by exact EP.
      unfold set. change (path_join ["in"] "settings.json") with ["in"; "settings.json"].
      rewrite ?EP'. reflexivity. }
  destruct (START (repeat Works (String.length (sha1_line digest ["in"] "settings.json" "{}")) ++ [])) as (G & ok & fl & E0 & SH & OK & PG).
  eexists. destruct (write_works ["in.sha1"] (sha1_line digest ["in"] "settings.json" "{}") ok fl [] G "" SH) as (f & E & H & A).
  rewrite E, OK in E0. exists f. split; [exact E0|].
  assert (PF : forall r c, f ("in" :: r) = Some (File c) <-> r = ["settings.json"] /\ c = "{}").
  { intros r c. rewrite A, PG by discriminate. destruct r as [|x r]; [split; [discriminate|intros [X _]; discriminate]|].
    destruct (path_eqb ["settings.json"] (x :: r)) eqn:EP.
    - apply path_eqb_spec in EP. rewrite <- EP. split; [intros X; injection X; auto|intros [_ ->]; auto].
    - apply path_eqb_neq in EP. split; [discriminate|intros [X _]; congruence]. }
  split.
  - apply (reload digest settings_ok [] "in" HD) with (es := [EFile "settings.json" "{}"]).
    + unfold segment. cbn. repeat split; try discriminate; intros X; repeat (destruct X as [X|X]; [discriminate|]); exact X.
    + cbn. intros x [<-|[]]. unfold fit, inside. cbn. repeat split; try discriminate; intros X; repeat (destruct X as [X|X]; [discriminate|]); exact X.
    + repeat constructor; auto.
    + constructor.
      * intros r c. cbn [app]. rewrite PF. cbn [content]. destruct (path_eqb (rel "settings.json") r) eqn:EP.
        -- apply path_eqb_spec in EP. subst r. split; [intros [_ ->]; auto|intros X; injection X; auto].
        -- apply path_eqb_neq in EP. split; [intros [X _]; elim EP; rewrite X; reflexivity|discriminate].
      * change (f ["in.sha1"] = Some (File (sha1_line digest ["in"] "settings.json" "{}" ++ "")%string)). rewrite append_nil_r. exact H.
      * exists "{}". split; [apply PF; auto|auto].
  - intros X. specialize (X ["cases"; "in"; "0.in"] "1"). cbn [app] in X. rewrite PF in X. destruct X as [_ X]. destruct X as [X _]; [reflexivity|discriminate].
Qed.
Print Assumptions C31_literal_runner_refuted.

(* ---- C31: the grader ---- *)
(* A crash while the manager adds an input: if the archive is accepted later, it
   is what was written from the repository, with its hash and length.  The bytes
   written when the compressor is closed can be missing, but only if writing them
   failed. *)
Theorem C31_grader_crash : forall digest d n body trailer total walk_ok os f0 f size hash len,
  hex_digest digest -> (0 <= total < 2 ^ 63)%Z -> ~ In Fails (firstn 4 os) ->
  exec (grader_add digest (d ++ [n]) body trailer total walk_ok) os f0 = Crashed f ->
  grader_Verify digest (d ++ [n]) f = Some (size, hash, len) ->
  walk_ok = true /\ len = total /\ exists archive, f (d ++ [n]) = Some (File archive) /\ hash = digest archive /\ size = Z.of_nat (String.length archive) /\
    (exists t u, trailer = (t ++ u)%string /\ archive = (body ++ t)%string) /\ (~ In Fails os -> archive = (body ++ trailer)%string).
Proof.
  intros digest d n body trailer total walk_ok os f0 f size hash len HD HT HO HE HV. unfold grader_add, add in HE. cbn [exec] in HE.
  destruct (grader_Verify digest (d ++ [n]) f0) as [[[z h0] l0]|] eqn:E0; [discriminate|].
  destruct (grader_delete_exec (d ++ [n]) (grader_Persist digest (d ++ [n]) body trailer total walk_ok) os f0 HO) as [(f' & E & S)|(os' & f' & E & NF & NA & _)]; rewrite E in HE.
  - injection HE as <-. rewrite (grader_verify_sub _ _ _ _ _ S HV) in E0. discriminate.
  - assert (X : forall al, (al = false -> ~ In Fails os') -> exists c, good digest d n body trailer total walk_ok al c f).
    { intros al Hal. pose proof (grader_persist_safe digest d n body trailer total walk_ok al f' NA os' Hal) as X. rewrite HE in X.
      destruct X as [X|X]; [rewrite (noa_verify digest d n f X) in HV; discriminate|exact X]. }
    destruct (X true) as (c & G); [discriminate|]. pose proof (good_verify _ _ _ _ _ _ _ _ _ _ HD HT G) as V. rewrite HV in V. injection V as -> -> ->.
    split; [apply G|]. split; [auto|]. exists c. split; [apply G|]. split; [auto|]. split; [auto|]. split.
    + destruct (g_content _ _ _ _ _ _ _ _ _ _ G) as (t & u & A & B & _). eauto.
    + intros NFs. destruct (X false) as (c' & G'); [tauto|]. pose proof (g_a _ _ _ _ _ _ _ _ _ _ G) as A. rewrite (g_a _ _ _ _ _ _ _ _ _ _ G') in A. injection A as ->.
      destruct (g_content _ _ _ _ _ _ _ _ _ _ G') as (t & u & _ & -> & A). rewrite A; auto.
Qed.
Print Assumptions C31_grader_crash.

Theorem C31_grader_finish : forall digest d n body trailer total walk_ok os f0 f s,
  hex_digest digest -> (0 <= total < 2 ^ 63)%Z -> ~ In Fails (firstn 4 os) -> grader_Verify digest (d ++ [n]) f0 = None ->
  exec (grader_add digest (d ++ [n]) body trailer total walk_ok) os f0 = Finished (Nil s) f ->
  walk_ok = true /\ exists archive, f (d ++ [n]) = Some (File archive) /\ s = Some (Z.of_nat (String.length archive)) /\
    grader_Verify digest (d ++ [n]) f = Some (Z.of_nat (String.length archive), digest archive, total) /\
    (exists t u, trailer = (t ++ u)%string /\ archive = (body ++ t)%string) /\ (~ In Fails os -> archive = (body ++ trailer)%string).
Proof.
  intros digest d n body trailer total walk_ok os f0 f s HD HT HO E0 HE. unfold grader_add, add in HE. cbn [exec] in HE. rewrite E0 in HE.
  destruct (grader_delete_exec (d ++ [n]) (grader_Persist digest (d ++ [n]) body trailer total walk_ok) os f0 HO) as [(f' & E & S)|(os' & f' & E & NF & NA & _)]; rewrite E in HE; [discriminate|].
  assert (X : forall al, (al = false -> ~ In Fails os') -> exists c, good digest d n body trailer total walk_ok al c f /\ s = Some (Z.of_nat (String.length c))).
  { intros al Hal. pose proof (grader_persist_safe digest d n body trailer total walk_ok al f' NA os' Hal) as X. rewrite HE in X. exact X. }
  destruct (X true) as (c & G & ->); [discriminate|]. pose proof (good_verify _ _ _ _ _ _ _ _ _ _ HD HT G) as V.
  split; [apply G|]. exists c. split; [apply G|]. split; [auto|]. split; [auto|]. split.
  - destruct (g_content _ _ _ _ _ _ _ _ _ _ G) as (t & u & A & B & _). eauto.
  - intros NFs. destruct (X false) as (c' & G' & _); [tauto|]. pose proof (g_a _ _ _ _ _ _ _ _ _ _ G) as A. rewrite (g_a _ _ _ _ _ _ _ _ _ _ G') in A. injection A as ->.
    destruct (g_content _ _ _ _ _ _ _ _ _ _ G') as (t & u & _ & -> & A). rewrite A; auto.
Qed.
Print Assumptions C31_grader_finish.

Theorem C31_grader_error : forall digest d n body trailer total walk_ok os f0 f,
  ~ In Fails (firstn 4 os) ->
  exec (grader_add digest (d ++ [n]) body trailer total walk_ok) os f0 = Finished Err f -> grader_Verify digest (d ++ [n]) f = None.
Proof.
  intros digest d n body trailer total walk_ok os f0 f HO HE. unfold grader_add, add in HE. cbn [exec] in HE.
  destruct (grader_Verify digest (d ++ [n]) f0) as [[[z h0] l0]|] eqn:E0; [discriminate|].
  destruct (grader_delete_exec (d ++ [n]) (grader_Persist digest (d ++ [n]) body trailer total walk_ok) os f0 HO) as [(f' & E & S)|(os' & f' & E & NF & NA & _)]; rewrite E in HE; [discriminate|].
  pose proof (grader_persist_safe digest d n body trailer total walk_ok true f' NA os') as X. rewrite HE in X. apply noa_verify, X. discriminate.
Qed.
Print Assumptions C31_grader_error.

(* The errors of closing the compressor are ignored: an archive that lacks its
   end is hashed, committed and accepted. *)
Theorem C31_grader_truncated_refuted : forall digest body trailer total, hex_digest digest -> (0 <= total < 2 ^ 63)%Z -> trailer <> "" ->
  exists os f, exec (grader_add digest ["a"] body trailer total true) os empty_fs = Finished (Nil (Some (Z.of_nat (String.length body)))) f /\
    f ["a"] = Some (File body) /\ grader_Verify digest ["a"] f = Some (Z.of_nat (String.length body), digest body, total).
Proof.
  intros digest body trailer total HD HT HN. destruct trailer as [|tc tr]; [congruence|].
  set (l := (digest body ++ " *" ++ "a" ++ lf)%string). set (z := (fmt_int total ++ lf)%string).
  assert (P1 : forall rest, exists G, exec (grader_add digest ["a"] body (String tc tr) total true) ([Works; Works; Works; Works; Works; Works] ++ rest) empty_fs =
    exec (grader_Persist digest ["a"] body (String tc tr) total true) ([Works; Works] ++ rest) G /\ forall q, G q = empty_fs q).
  { intros rest. exists empty_fs. split; [reflexivity|auto]. }
  destruct (P1 (repeat Works (String.length body) ++ Fails :: Works :: repeat Works (String.length l) ++ Works :: repeat Works (String.length z) ++ [Works; Works])) as (G & E & HG).
  eexists. rewrite E. unfold grader_Persist. cbn [removelast]. cbn [exec app].
  assert (M : exists G1, apply (MkdirAll []) G = Some G1 /\ G1 [] = Some Dir /\ forall q, q <> [] -> G1 q = None).
  { cbn. rewrite HG. cbn. eexists. split; [reflexivity|]. split; [reflexivity|]. intros [|x q] Hq; [congruence|]. cbn. rewrite HG. auto. }
  destruct M as (G1 & -> & D1 & N1). cbn [negb exec]. clear E HG P1 G.
  assert (CR : forall g q, g [] = Some Dir -> g [q] <> Some Dir -> apply (Create [q]) g = Some (set g [q] (Some (File "")))).
  { intros g q A B. cbn [apply removelast]. unfold is_dir. rewrite A. destruct (g [q]) as [[|]|]; auto. congruence. }
  change (with_ext ["a"] ".tmp") with ["a.tmp"]. change (with_ext ["a"] ".sha1") with ["a.sha1"]. change (with_ext ["a"] ".len") with ["a.len"].
  rewrite CR by (auto; rewrite N1; discriminate). cbn [negb exec].
  set (G2 := set G1 ["a.tmp"] (Some (File ""))).
  match goal with |- context [exec (write ["a.tmp"] body ?ok ?fl) (_ ++ ?rest) G2] => destruct (write_works ["a.tmp"] body ok fl rest G2 "" (set_same _ _ _)) as (G3 & E3 & H3 & A3) end.
  rewrite E3. clear E3. cbn [append] in H3. cbn [write_ignoring exec negb]. rewrite H3.
  assert (N3 : forall q, q <> ["a.tmp"] -> G3 q = G1 q). { intros q Hq. rewrite A3 by auto. unfold G2. apply set_other. auto. }
  cbn [exec]. rewrite CR; [|rewrite N3; [auto|discriminate]|rewrite N3, N1; discriminate].
  cbn [negb exec]. change (last ["a"] "") with "a". fold l.
  set (G4 := set G3 ["a.sha1"] (Some (File ""))).
  match goal with |- context [exec (write ["a.sha1"] l ?ok ?fl) (_ ++ ?rest) G4] => destruct (write_works ["a.sha1"] l ok fl rest G4 "" (set_same _ _ _)) as (G5 & E5 & H5 & A5) end.
  rewrite E5. clear E5. cbn [append] in H5. cbn [exec].
  assert (N5 : forall q, q <> ["a.sha1"] -> G5 q = G3 q). { intros q Hq. rewrite A5 by auto. unfold G4. apply set_other. auto. }
  rewrite CR; [|rewrite N5, N3; [auto|discriminate|discriminate]|rewrite N5, N3, N1; discriminate].
  cbn [negb exec]. fold z.
  set (G6 := set G5 ["a.len"] (Some (File ""))).
  match goal with |- context [exec (write ["a.len"] z ?ok ?fl) (_ ++ ?rest) G6] => destruct (write_works ["a.len"] z ok fl rest G6 "" (set_same _ _ _)) as (G7 & E7 & H7 & A7) end.
  rewrite E7. clear E7. cbn [append] in H7. cbn [exec].
  assert (N7 : forall q, q <> ["a.len"] -> G7 q = G5 q). { intros q Hq. rewrite A7 by auto. unfold G6. apply set_other. auto. }
  assert (R : apply (Rename ["a.tmp"] ["a"]) G7 = Some (set (set G7 ["a.tmp"] None) ["a"] (Some (File body)))).
  { cbn [apply removelast]. rewrite N7, N5, H3 by discriminate. unfold is_dir. rewrite !N7, !N5, !N3, D1, (N1 ["a"]) by discriminate. reflexivity. }
  rewrite R. cbn [negb exec].
  set (G8 := set (set G7 ["a.tmp"] None) ["a"] (Some (File body))).
  assert (R2 : apply (Remove ["a.tmp"]) G8 = None). { cbn [apply]. unfold G8. rewrite set_other by discriminate. rewrite set_same. auto. }
  rewrite R2. eexists. split; [reflexivity|]. split; [apply set_same|].
  apply (good_verify digest [] "a" body "" total true true body G8 HD HT). constructor; auto.
  - exists "", "". rewrite (append_nil_r body). auto.
  - unfold G8. rewrite !set_other by discriminate. rewrite N7 by discriminate. exact H5.
Qed.
Print Assumptions C31_grader_truncated_refuted.

(* An in-memory input persisted for the grader: the hash is written last. *)
Theorem C31_literal_grader_crash : forall digest d n tarfile total os f0 r f size hash len,
  (0 <= total < 2 ^ 63)%Z -> ~ In Fails (firstn 4 os) -> grader_Verify digest (d ++ [n]) f0 = None ->
  exec (literal_grader_add (d ++ [n]) (digest tarfile) tarfile total) os f0 = r -> r = Crashed f \/ (exists x, r = Finished x f) ->
  grader_Verify digest (d ++ [n]) f = Some (size, hash, len) ->
  size = Z.of_nat (String.length tarfile) /\ hash = digest tarfile /\ len = total /\ f (d ++ [n]) = Some (File tarfile).
Proof.
  intros digest d n tarfile total os f0 r f size hash len HT HO E0 HE HR HV. unfold literal_grader_add, add in HE. cbn [exec] in HE.
  destruct (grader_delete_exec (d ++ [n]) (literal_grader_Persist (d ++ [n]) (digest tarfile) tarfile total) os f0 HO) as [(f' & E & S)|(os' & f' & E & NF & NA & NS & _)]; rewrite E in HE.
  - subst r. destruct HR as [HR|(x & HR)]; [|discriminate]. injection HR as ->. rewrite (grader_verify_sub _ _ _ _ _ S HV) in E0. discriminate.
  - rewrite with_ext_snoc in NS. pose proof (literal_grader_safe d n total (digest tarfile) tarfile true f' NS os') as X. rewrite HE in X.
    assert (Y : nosha d n f \/ data d n total tarfile f).
    { destruct HR as [-> |(x & ->)]; [apply X; discriminate|]. destruct x as [|[s|]]; [apply X; discriminate| |apply X; discriminate].
      destruct X as [[A _ B] _]; [discriminate|]. right. split; auto. }
    destruct Y as [Y|Y]; [rewrite (nosha_verify digest d n f Y) in HV; discriminate|].
    destruct (data_verify digest d n total tarfile f size hash len HT Y HV) as (-> & -> & ->). destruct Y. auto.
Qed.
Print Assumptions C31_literal_grader_crash.
Theorem C31_literal_grader_finish : forall digest d n tarfile total os f0 f s,
  hex_digest digest -> (0 <= total < 2 ^ 63)%Z -> ~ In Fails (firstn 4 os) ->
  exec (literal_grader_add (d ++ [n]) (digest tarfile) tarfile total) os f0 = Finished (Nil (Some s)) f ->
  s = Z.of_nat (String.length tarfile) /\ f (d ++ [n]) = Some (File tarfile) /\ grader_Verify digest (d ++ [n]) f = Some (s, digest tarfile, total).
Proof.
  intros digest d n tarfile total os f0 f s HD HT HO HE. unfold literal_grader_add, add in HE. cbn [exec] in HE.
  destruct (grader_delete_exec (d ++ [n]) (literal_grader_Persist (d ++ [n]) (digest tarfile) tarfile total) os f0 HO) as [(f' & E & S)|(os' & f' & E & NF & NA & NS & _)]; rewrite E in HE; [discriminate|].
  rewrite with_ext_snoc in NS. pose proof (literal_grader_safe d n total (digest tarfile) tarfile true f' NS os') as X. rewrite HE in X.
  destruct X as [X ->]; [discriminate|]. split; [auto|]. split; [apply X|]. eapply gliteral_verify; eauto.
Qed.
Print Assumptions C31_literal_grader_finish.

(* But a failed write is answered with nil: the caller gets an input that was
   never stored. *)
Theorem C31_literal_grader_silent_refuted : forall digest hash tarfile total,
  exists os f, exec (literal_grader_add ["a"] hash tarfile total) os empty_fs = Finished (Nil None) f /\
    f ["a"] = None /\ grader_Verify digest ["a"] f = None.
Proof. intros. exists [Works; Works; Works; Works; Works; Fails]. eexists. split; [reflexivity|]. split; reflexivity. Qed.
Print Assumptions C31_literal_grader_silent_refuted.

(* ---- C34 ---- *)
(* Adding an input touches nothing but the input's directory, its .tmp directory
   and its .sha1 file (and makes the directories above them), if no name climbs. *)
Theorem C34_inside : forall digest settings_ok d n stream readable es clean streamHash os f0 r f,
  (forall e, In e es -> inside (name_of e)) ->
  exec (runner_add digest settings_ok (d ++ [n]) stream readable es clean streamHash) os f0 = r -> r = Crashed f \/ (exists x, r = Finished x f) ->
  forall q, ~ below (d ++ [n]) q -> ~ below (d ++ [(n ++ ".tmp")%string]) q -> ~ below (d ++ [(n ++ ".sha1")%string]) q -> ~ below q (d ++ [n]) ->
  f q = f0 q.
Proof.
  intros digest settings_ok d n stream readable es clean streamHash os f0 r f HI HE HR q H1 H2 H3 H4.
  set (U := fun g : fs => g q = f0 q).
  assert (X : safe true (runner_add digest settings_ok (d ++ [n]) stream readable es clean streamHash) f0 U (fun _ => U)).
  { unfold runner_add, add. apply safe_look. destruct (runner_Verify digest settings_ok (d ++ [n]) f0); [apply safe_ret; reflexivity|].
    unfold runner_Delete. rewrite !with_ext_snoc.
    assert (RM : forall k g w, ~ below w q -> U g -> (forall g', U g' -> safe true k g' U (fun _ => U)) -> safe true (Do (RemoveAll w) (fun _ => k)) g U (fun _ => U)).
    { intros k g w HW HU HK. apply strip_none in HW. apply safe_do; [auto| | |auto].
      - intros kept. unfold U. cbn. rewrite HW. auto.
      - intros g' E. cbn in E. injection E as <-. apply HK. unfold U. rewrite HW. auto. }
    apply RM; [auto|reflexivity|]. intros g1 U1. apply RM; [auto|auto|]. intros g2 U2. apply RM; [auto|auto|]. intros g3 U3.
    eapply safe_weaken; [| |apply (persist_untouched digest settings_ok d n true stream readable es clean streamHash g3 HI)].
    - intros g Hg. unfold U. rewrite (Hg q); auto. intros EQ. apply H3. rewrite EQ. exists []. rewrite app_nil_r. auto.
    - intros x0 g Hg. unfold U. rewrite (Hg q); auto. intros EQ. apply H3. rewrite EQ. exists []. rewrite app_nil_r. auto. }
  specialize (X os). rewrite HE in X. destruct HR as [->|(x & ->)]; apply X; discriminate.
Qed.
Print Assumptions C34_inside.

(* Where a name that does not climb goes. *)
Theorem C34_place : forall p name, inside name -> below p (path_join p name).
Proof. intros p name H. rewrite (path_join_inside p name H). eexists. reflexivity. Qed.
Print Assumptions C34_place.

(* Names are not checked: ".." leaves the directory. *)
Theorem C34_traversal_refuted : forall digest settings_ok stream clean hash, exists es os f,
  exec (runner_add digest settings_ok ["cache"; "in"] stream true es clean hash) os empty_fs = Crashed f /\
  f ["etc"; "passwd"] = Some (File "x").
Proof.
  intros. exists [EFile "../../etc/passwd" "xy"]. exists [Works; Works; Works; Works; Works; Works; Works; Works]. eexists. split; [reflexivity|reflexivity].
Qed.
Print Assumptions C34_traversal_refuted.

(* What Verify reads: paths whose text starts with that of the input. *)
Theorem C34_verify_reads : forall digest settings_ok d n f g,
  (forall q, prefix (path_text (d ++ [n])) (path_text q) = true -> f q = g q) ->
  runner_Verify digest settings_ok (d ++ [n]) f = runner_Verify digest settings_ok (d ++ [n]) g.
Proof.
  intros digest settings_ok d n f g H. unfold runner_Verify.
  assert (S : f (with_ext (d ++ [n]) ".sha1") = g (with_ext (d ++ [n]) ".sha1")).
  { rewrite with_ext_snoc. apply H. unfold path_text. destruct d as [|x d].
    - cbn [app join]. rewrite <- append_assoc. apply prefix_app.
    - rewrite !join_app by discriminate. change (join "/" [n]) with n. change (join "/" [(n ++ ".sha1")%string]) with (n ++ ".sha1")%string.
      change (String "/" (n ++ ".sha1")%string) with ((String "/" n) ++ ".sha1")%string. rewrite <- !append_assoc. apply prefix_app. }
  rewrite <- S. destruct (f (with_ext (d ++ [n]) ".sha1")) as [[s|]|]; auto.
  assert (M : forall ls m m', (forall q h, In (q, h) m -> f q = g q) -> stored_hashes (d ++ [n]) m ls = Some m' -> forall q h, In (q, h) m' -> f q = g q).
  { induction ls as [|l ls IH]; intros m m' HM E; cbn [stored_hashes] in E; [injection E as <-; exact HM|].
    destruct (parse_line l) as [[h nm]|]; [|discriminate]. destruct (prefix _ _) eqn:EP; [|discriminate]. revert E. apply IH.
    intros q h'. clear IH. induction m as [|[k v] m IHm]; cbn [put].
    - intros [X|[]]. injection X as <- <-. apply H. auto.
    - destruct (path_eqb k (path_join (removelast (d ++ [n])) nm)) eqn:EK.
      + intros [X|X]; [injection X as <- <-; apply path_eqb_spec in EK; subst k; apply H; auto|]. apply (HM q h'). right. auto.
      + intros [X|X]; [injection X as <- <-; apply (HM _ v); left; auto|]. apply IHm; auto. intros; eapply HM; right; eauto. }
  destruct (stored_hashes (d ++ [n]) [] (scan_lines s)) as [m|] eqn:EM; auto.
  assert (M0 : forall q h, In (q, h) (@nil (path * string)) -> f q = g q) by (intros ? ? []); specialize (M _ _ _ M0 EM).
  assert (CH : forall z, check_hashes digest f m z = check_hashes digest g m z).
  { clear EM. induction m as [|[q h] m IH]; intros z; cbn [check_hashes]; [auto|]. rewrite <- (M q h) by (left; auto). destruct (f q) as [[c|]|]; auto. destruct (digest c =? h); auto.
    apply IH. intros; eapply M; right; eauto. }
  rewrite <- CH. destruct (check_hashes digest f m 0); auto.
  rewrite <- (H ((d ++ [n]) ++ ["settings.json"])); [auto|]. apply path_text_prefix. destruct d; discriminate.
Qed.
Print Assumptions C34_verify_reads.

(* But not only the input's directory: that of another input, whose name starts
   with this one's, will do. *)
Theorem C34_verify_sibling_refuted : forall digest settings_ok, hex_digest digest -> settings_ok "{}" = true ->
  exists f g, (forall q, below ["cd"] q \/ q = ["cd.sha1"] -> f q = g q) /\
    runner_Verify digest settings_ok ["cd"] f = Some 1%Z /\ runner_Verify digest settings_ok ["cd"] g = None.
Proof.
  intros digest settings_ok HD HS.
  set (g := set (set (set empty_fs ["cd"] (Some Dir)) ["cd"; "settings.json"] (Some (File "{}"))) ["cd.sha1"] (Some (File (digest "x" ++ " *cdevil/x" ++ lf)%string))).
  exists (set g ["cdevil"; "x"] (Some (File "x"))), g.
  assert (SC : scan_lines (digest "x" ++ " *cdevil/x" ++ lf)%string = [(digest "x" ++ " *cdevil/x")%string]).
  { unfold scan_lines. rewrite <- append_assoc. unfold lf. assert (NP : forall c, is_hex c = false -> contains c " *cdevil/x" \/ ~ contains c (digest "x" ++ " *cdevil/x")%string).
    { intros c Hc. destruct (in_dec ascii_dec c (list_ascii_of_string " *cdevil/x")) as [I|I]; [left; auto|right]. rewrite contains_app. intros [X|X]; [|contradiction]. apply (proj2 (HD "x")) in X. congruence. }
    assert (NL : ~ contains LF (digest "x" ++ " *cdevil/x")%string). { destruct (NP LF eq_refl) as [X|X]; [|auto]. cbn in X. repeat (destruct X as [X|X]; [discriminate|]). elim X. }
    assert (NC : ~ contains CR (digest "x" ++ " *cdevil/x")%string). { destruct (NP CR eq_refl) as [X|X]; [|auto]. cbn in X. repeat (destruct X as [X|X]; [discriminate|]). elim X. }
    rewrite split_app by auto. cbn [split drop_empty_last]. cbn [String.eqb map]. rewrite strip_cr_id by auto. auto. }
  assert (PL : parse_line (digest "x" ++ " *cdevil/x")%string = Some (digest "x", "cdevil/x")).
  { unfold parse_line. destruct (HD "x") as [HL HX].
    assert (S : skip_space (digest "x" ++ " *cdevil/x")%string = (digest "x" ++ " *cdevil/x")%string).
    { destruct (digest "x") as [|c s]; [discriminate|]. cbn [append skip_space]. rewrite (hex_not_space c); [auto|]. apply HX. left. auto. }
    rewrite S. rewrite <- HL. rewrite take_hex_app by auto. reflexivity. }
  assert (ST : stored_hashes ["cd"] [] [(digest "x" ++ " *cdevil/x")%string] = Some [(["cdevil"; "x"], digest "x")]).
  { cbn [stored_hashes]. rewrite PL. reflexivity. }
  split; [|split].
  - intros q [(r & ->)| -> ]; [|reflexivity]. apply set_other. discriminate.
  - unfold runner_Verify. change (with_ext ["cd"] ".sha1") with ["cd.sha1"]. rewrite set_other by discriminate. unfold g at 1. rewrite set_same, SC, ST.
    cbn [check_hashes]. rewrite set_same, String.eqb_refl. cbn [app]. rewrite set_other by discriminate. replace (g ["cd"; "settings.json"]) with (Some (File "{}")) by reflexivity. rewrite HS. reflexivity.
  - unfold runner_Verify. change (with_ext ["cd"] ".sha1") with ["cd.sha1"]. unfold g at 1. rewrite set_same, SC, ST. reflexivity.
Qed.
Print Assumptions C34_verify_sibling_refuted.

(* ---- A concrete case ---- *)
Definition ex_digest (s : string) : string := match s with "" => hex0 | _ => "f000000000000000000000000000000000000000" end.
Definition ex_es := [EDir "cases/"; EFile "cases/0.in" "1 2"; EFile "settings.json" "{}"].
Example ex_hex : hex_digest ex_digest.
Proof. intros s. destruct s; split; try reflexivity; intros c H; cbn in H; repeat (destruct H as [<-|H]; [reflexivity|]); elim H. Qed.
(* Adding it to an empty disk ends well... *)
Example ex_add : match exec (runner_add ex_digest (fun _ => true) ["ab"; "cd"] "tgz" true ex_es true (ex_digest "tgz")) (repeat Works 200) empty_fs with
  | Finished r f => (r, f ["ab"; "cd"; "cases"; "0.in"], runner_Verify ex_digest (fun _ => true) ["ab"; "cd"] f) | Crashed _ => (Err, None, None) end
  = (Nil (Some 5%Z), Some (File "1 2"), Some 5%Z).
Proof. vm_compute. reflexivity. Qed.
(* ...and of all the points where it can crash, only the one after the renaming
   leaves something that is accepted. *)
Example ex_crashes : List.filter (fun k => match exec (runner_add ex_digest (fun _ => true) ["ab"; "cd"] "tgz" true ex_es true (ex_digest "tgz")) (repeat Works k) empty_fs with
  | Crashed f => match runner_Verify ex_digest (fun _ => true) ["ab"; "cd"] f with Some _ => true | None => false end | Finished _ _ => false end) (seq 0 200) = [131]%nat.
Proof. vm_compute. reflexivity. Qed.
Example ex_names : (forall e, In e ex_es -> inside (name_of e)) /\ segment "cd" /\ (forall nm c, In (EFile nm c) ex_es -> fit nm) /\ NoDup (map (fun x => rel (fst x)) (files ex_es)).
Proof.
  split; [|split; [|split]].
  - intros e H. cbn in H. repeat (destruct H as [<-|H]; [intros X; cbn in X; repeat (destruct X as [X|X]; [discriminate|]); exact X|]). elim H.
  - unfold segment. cbn. repeat split; try discriminate; intros X; repeat (destruct X as [X|X]; [discriminate|]); exact X.
  - intros nm c H. cbn in H. repeat (destruct H as [H|H]; [try discriminate; injection H as <- <-; unfold fit, inside; cbn; repeat split; try discriminate; intros X; repeat (destruct X as [X|X]; [discriminate|]); exact X|]). elim H.
  - cbn. constructor; [intros [X|[]]; discriminate|repeat constructor; auto].
Qed.

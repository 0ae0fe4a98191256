(* C62, C63: requests for ephemeral runs. *)
From Coq Require Import String Ascii List Bool ZArith QArith Lia Permutation.
From Verif Require Import GoStr InModel LitModel LitSpec LitProofs LitProps FeSpec FePathProps EhModel EhSpec.
Import ListNotations.
Local Open Scope string_scope.

(* ---- C63: files of runs ---- *)
Lemma split_url rest : split "/" ("/ephemeral/run/" ++ rest) = "" :: "ephemeral" :: "run" :: split "/" rest.
Proof.
  change ("/ephemeral/run/" ++ rest) with ("" ++ String "/" ("ephemeral" ++ String "/" ("run" ++ String "/" rest))).
  rewrite !split_app; [reflexivity| | |]; cbn; intuition discriminate.
Qed.
Lemma split_two rest t n : split "/" rest = [t; n] <-> rest = t ++ "/" ++ n /\ ~ contains "/" t /\ ~ contains "/" n.
Proof.
  split.
  - intros H. apply split_spec in H. destruct H as (_ & F & ->). inversion F as [|? ? A F']; subst. inversion F' as [|? ? B _]; subst. auto.
  - intros (-> & A & B). change (t ++ "/" ++ n) with (t ++ String "/" n). rewrite split_app by auto. rewrite split_single by auto. reflexivity.
Qed.
Lemma public_no_slash n : In n public_files -> n <> "" /\ entry_name n.
Proof. cbn. intros H. repeat (destruct H as [<-|H]; [split; [discriminate|]; repeat split; try discriminate; cbn; intuition discriminate|]). elim H. Qed.
Lemma public_spec n : existsb (String.eqb n) validEphemeralRunFilenames = true <-> In n public_files.
Proof. rewrite existsb_exists. split; [intros (x & H & E); apply String.eqb_eq in E; subst; exact H|intros H; exists n; split; [exact H|apply String.eqb_refl]]. Qed.

(* A request below /ephemeral/run/ is for a new run exactly if it is POSTed as JSON to
   new/, and for a file exactly if it is a GET of t/n, for one of five names n. *)
Theorem C63_requests : forall rest method contentType,
  (demand_of ("/ephemeral/run/" ++ rest) method contentType = New <-> rest = "new/" /\ method = "POST" /\ contentType = "application/json") /\
  (forall t n, demand_of ("/ephemeral/run/" ++ rest) method contentType = GetFile t n <-> rest = t ++ "/" ++ n /\ ~ contains "/" t /\ In n public_files /\ method = "GET").
Proof.
  intros rest m ct. unfold demand_of. rewrite split_url. destruct (split_cons "/" rest) as (t & l & E). rewrite E.
  destruct l as [|n [|x l]].
  - split; [|intros t' n']; (split; [discriminate|]).
    + intros (-> & _). discriminate E.
    + intros (-> & A & B & _). apply public_no_slash in B. destruct B as [_ (_ & _ & _ & B)]. rewrite (proj2 (split_two _ t' n')) in E by auto. discriminate E.
  - pose proof (proj1 (split_two _ _ _) E) as (-> & A & B). split; [|intros t' n'].
    + destruct ((t =? "new") && (n =? "")) eqn:X.
      * apply andb_true_iff in X. destruct X as [X Y]. apply String.eqb_eq in X, Y. subst.
        destruct (String.eqb_spec m "POST") as [->|NM]; cbn [negb]; [|split; [discriminate|intros (_ & Z & _); contradiction]].
        destruct (String.eqb_spec ct "application/json") as [->|NM]; cbn [negb]; [|split; [discriminate|intros (_ & _ & Z); contradiction]]. split; auto.
      * split; [intros H; destruct (negb _); [discriminate|]; destruct (negb _); discriminate|]. intros (Z & _). exfalso.
        assert (Q : split "/" (t ++ "/" ++ n) = ["new"; ""]) by (rewrite Z; reflexivity). rewrite E in Q. injection Q as -> ->. discriminate X.
    + destruct ((t =? "new") && (n =? "")) eqn:X.
      * apply andb_true_iff in X. destruct X as [X Y]. apply String.eqb_eq in X, Y. subst.
        split; [intros H; destruct (negb _); [discriminate|]; destruct (negb _); discriminate|]. intros (Z & T & N & _). exfalso. apply public_no_slash in N. destruct N as [N (_ & _ & _ & N')].
        pose proof (proj2 (split_two ("new" ++ "/" ++ "") t' n')) as Q. rewrite Q in E by auto. injection E as _ ->. auto.
      * destruct (String.eqb_spec m "GET") as [->|NM]; cbn [negb]; [|split; [discriminate|intros (_ & _ & _ & Z); contradiction]].
        pose proof (public_spec n) as PS. destruct (existsb (String.eqb n) validEphemeralRunFilenames); cbn [negb].
        -- split; [intros H; injection H as <- <-; repeat split; auto; apply PS; auto|]. intros (Z & T & N & _).
           pose proof (proj2 (public_no_slash _ N)) as (_ & _ & _ & N'). rewrite (proj2 (split_two _ t' n')) in E by auto. injection E as <- <-. auto.
        -- split; [discriminate|]. intros (Z & T & N & _). pose proof (proj2 (public_no_slash _ N)) as (_ & _ & _ & N'). rewrite (proj2 (split_two _ t' n')) in E by auto. injection E as <- <-. apply PS in N. discriminate N.
  - split; [|intros t' n']; (split; [discriminate|]).
    + intros (-> & _). discriminate E.
    + intros (-> & A & B & _). apply public_no_slash in B. destruct B as [_ (_ & _ & _ & B)]. rewrite (proj2 (split_two _ t' n')) in E by auto. discriminate E.
Qed.
Print Assumptions C63_requests.

(* Every other request is refused, and how. *)
Theorem C63_refused : forall rest method contentType s,
  demand_of ("/ephemeral/run/" ++ rest) method contentType = Refused s <->
  (rest = "new/" /\ (method <> "POST" /\ s = 405 \/ method = "POST" /\ contentType <> "application/json" /\ s = 400)%Z) \/
  (rest <> "new/" /\ exists t n, rest = t ++ "/" ++ n /\ ~ contains "/" t /\ ~ contains "/" n /\
     (method <> "GET" /\ s = 405 \/ method = "GET" /\ ~ In n public_files /\ s = 404)%Z) \/
  ((forall t n, rest = t ++ "/" ++ n -> contains "/" t \/ contains "/" n) /\ s = 404%Z).
Proof.
  intros rest m ct s. unfold demand_of. rewrite split_url. destruct (split_cons "/" rest) as (t & l & E). rewrite E.
  assert (NB : forall a, {contains "/" a} + {~ contains "/" a}) by (intro a; apply in_dec, ascii_dec).
  assert (NOT : forall s', (forall a b, split "/" rest <> [a; b]) ->
     (Refused s' = Refused s <-> (rest = "new/" /\ (m <> "POST" /\ s = 405 \/ m = "POST" /\ ct <> "application/json" /\ s = 400)%Z) \/
     (rest <> "new/" /\ exists t n, rest = t ++ "/" ++ n /\ ~ contains "/" t /\ ~ contains "/" n /\ (m <> "GET" /\ s = 405 \/ m = "GET" /\ ~ In n public_files /\ s = 404)%Z) \/
     ((forall t n, rest = t ++ "/" ++ n -> contains "/" t \/ contains "/" n) /\ s = s')) ).
  { intros s' N. split.
    - intro H. injection H as ->. right. right. split; [|reflexivity]. intros a b R. destruct (NB a); [auto|]. destruct (NB b); [auto|]. exfalso. apply (N a b). apply split_two. auto.
    - intros [(-> & _)|[(_ & a & b & R & A & B & _)|(_ & ->)]]; [|exfalso; apply (N a b); apply split_two; auto|reflexivity]. exfalso. apply (N "new" ""). reflexivity. }
  destruct l as [|n [|x l]].
  - apply NOT. intros a b X. rewrite E in X. discriminate.
  - pose proof (proj1 (split_two _ _ _) E) as (R & A & B).
    assert (U : forall a b, rest = a ++ "/" ++ b -> ~ contains "/" a -> ~ contains "/" b -> a = t /\ b = n).
    { intros a b X Y Z. assert (Q : split "/" rest = [a; b]) by (apply split_two; auto). rewrite E in Q. injection Q as -> ->. auto. }
    destruct ((t =? "new") && (n =? "")) eqn:X.
    + apply andb_true_iff in X. destruct X as [X Y]. apply String.eqb_eq in X, Y. subst t n. change ("new" ++ "/" ++ "") with "new/" in R.
      transitivity (m <> "POST" /\ s = 405%Z \/ m = "POST" /\ ct <> "application/json" /\ s = 400%Z).
      * destruct (String.eqb_spec m "POST") as [->|NM]; cbn [negb].
        -- destruct (String.eqb_spec ct "application/json") as [->|NC]; cbn [negb].
           ++ split; [discriminate|]. intros [(Z & _)|(_ & Z & _)]; contradiction.
           ++ split; [intro H; injection H as <-; right; auto|]. intros [(Z & _)|(_ & _ & ->)]; [contradiction|reflexivity].
        -- split; [intro H; injection H as <-; left; auto|]. intros [(_ & ->)|(Z & _)]; [reflexivity|contradiction].
      * split; [intro H; left; auto|]. intros [(_ & H)|[(Z & _)|(Z & _)]]; [exact H|contradiction|]. destruct (Z "new" "" R); contradiction.
    + assert (NN : rest <> "new/"). { intros ->. change (split "/" "new/") with ["new"; ""] in E. injection E as <- <-. discriminate X. }
      transitivity (m <> "GET" /\ s = 405%Z \/ m = "GET" /\ ~ In n public_files /\ s = 404%Z).
      * destruct (String.eqb_spec m "GET") as [->|NM]; cbn [negb].
        -- pose proof (public_spec n) as PS. destruct (existsb (String.eqb n) validEphemeralRunFilenames); cbn [negb].
           ++ split; [discriminate|]. intros [(Z & _)|(_ & Z & _)]; [contradiction|]. exfalso. apply Z, PS. reflexivity.
           ++ split; [intro H; injection H as <-; right; repeat split; auto; intro I; apply PS in I; discriminate|]. intros [(Z & _)|(_ & _ & ->)]; [contradiction|reflexivity].
        -- split; [intro H; injection H as <-; left; auto|]. intros [(_ & ->)|(Z & _)]; [reflexivity|contradiction].
      * split; [intro H; right; left; split; [exact NN|]; exists t, n; auto|].
        intros [(Z & _)|[(_ & a & b & Y1 & Y2 & Y3 & H)|(Z & _)]]; [contradiction| |destruct (Z t n R); contradiction].
        destruct (U a b Y1 Y2 Y3) as (-> & ->). exact H.
  - apply NOT. intros a b X. rewrite E in X. discriminate.
Qed.
Print Assumptions C63_refused.

Lemma last_snoc {A} (l : list A) x d : last (l ++ [x]) d = x.
Proof. induction l as [|y [|z l] IH]; cbn in *; auto. Qed.
Lemma removelast_len {A} (l : list A) : (List.length (removelast l) <= List.length l)%nat.
Proof. induction l as [|x [|y l] IH]; cbn in *; lia. Qed.
Lemma join_token eph t x : ~ contains "/" t -> path_join eph t = (eph ++ [x])%list -> entry_name t /\ x = t.
Proof.
  intros N H. unfold path_join in H. rewrite split_single in H by auto. cbn [fold_left] in H. unfold join_seg in H.
  destruct ((t =? "") || (t =? ".")) eqn:A; [apply (f_equal (@List.length _)) in H; rewrite app_length in H; cbn in H; lia|].
  apply orb_false_iff in A. destruct A as [A1 A2]. apply String.eqb_neq in A1, A2.
  destruct (String.eqb_spec t "..") as [->|A3]; [apply (f_equal (@List.length _)) in H; rewrite app_length in H; cbn in H; pose proof (removelast_len eph); lia|].
  apply app_inv_head in H. injection H as <-. repeat split; auto.
Qed.
(* A file is served only from the directory of a run that is kept, and it is the file
   asked for: compressed exactly if there is a compressed one, and then declared so,
   with its type. *)
Theorem C63_files : forall ephemeralPath kept exists_ t n, (forall p, kept p = true -> exists x, p = (ephemeralPath ++ [x])%list) ->
  ~ contains "/" t -> In n public_files ->
  match get_file ephemeralPath kept exists_ t n with
  | None => kept (ephemeralPath ++ [t])%list = false \/ ~ entry_name t
  | Some a => entry_name t /\ kept (ephemeralPath ++ [t])%list = true /\
      (if exists_ (ephemeralPath ++ [t; (n ++ ".gz")%string])%list
       then fa_path a = (ephemeralPath ++ [t; (n ++ ".gz")%string])%list /\ fa_encoding a = "gzip" /\
            fa_type a = (if n =? "logs.txt" then "text/plain" else if n =? "files.zip" then "" else "application/json")
       else fa_path a = (ephemeralPath ++ [t; n])%list /\ fa_encoding a = "" /\ fa_type a = "")
  end.
Proof.
  intros eph kept ex t n HK T N. unfold get_file. destruct (kept (path_join eph t)) eqn:K; cbn [negb].
  - destruct (HK _ K) as [x X]. destruct (join_token _ _ _ T X) as [EN ->]. rewrite X in *.
    rewrite (join_entry _ n) by apply (public_no_slash n N).
    assert (W : with_ext ((eph ++ [t]) ++ [n])%list ".gz" = (eph ++ [t; (n ++ ".gz")%string])%list). { unfold with_ext. rewrite removelast_last, last_snoc, <- app_assoc. reflexivity. }
    rewrite W, last_snoc. destruct (ex _); cbn [fa_path fa_encoding fa_type]; (split; [auto|split; [auto|split; [|split; auto]]]); auto.
    + cbn in N. repeat (destruct N as [<-|N]; [reflexivity|]). elim N.
    + rewrite <- app_assoc. reflexivity.
  - destruct (String.eqb_spec t "") as [->|A1]; [right; intros (Z & _); auto|]. destruct (String.eqb_spec t ".") as [->|A2]; [right; intros (_ & Z & _); auto|].
    destruct (String.eqb_spec t "..") as [->|A3]; [right; intros (_ & _ & Z & _); auto|].
    left. rewrite <- K. rewrite join_entry; auto. repeat split; auto.
Qed.
Print Assumptions C63_files.
Example C63_met :
  get_file ["e"] (fun p => path_eqb p ["e"; "0a1b"]) (fun p => path_eqb p ["e"; "0a1b"; "logs.txt.gz"]) "0a1b" "logs.txt"
    = Some {| fa_path := ["e"; "0a1b"; "logs.txt.gz"]; fa_type := "text/plain"; fa_encoding := "gzip" |} /\
  demand_of "/ephemeral/run/0a1b/logs.txt" "GET" "" = GetFile "0a1b" "logs.txt" /\ demand_of "/ephemeral/run/new/" "POST" "application/json" = New.
Proof. repeat split. Qed.

(* ---- C62: before the run is queued ---- *)
Lemma max_score_some l : forall acc, complete l -> exists m, max_score l acc = Some m /\ m == acc + total_weight l.
Proof.
  induction l as [|[n x] l IH]; intros acc H; cbn [max_score].
  - exists acc. split; [auto|]. unfold total_weight. cbn. ring.
  - destruct (H n x (or_introl eq_refl)) as (c & w & -> & E). rewrite E. destruct (IH (Qred (acc + w))) as (m & A & B); [intros k y K; apply (H k); right; auto|].
    exists m. split; [auto|]. rewrite B, Qred_correct. unfold total_weight. cbn [map total].
    assert (X : weight_of (n, Some c) = w) by (unfold weight_of; cbn; rewrite E; auto). rewrite X. ring.
Qed.
Lemma max_score_none l : forall acc, max_score l acc = None -> ~ complete l.
Proof. intros acc H C. destruct (max_score_some l acc C) as (m & A & _). congruence. Qed.
Lemma complete_perm l l' : Permutation l l' -> complete l -> complete l'.
Proof. intros P H n x I. apply (H n). apply (Permutation_in _ (Permutation_sym P)). auto. Qed.
Lemma capped_cases cfg i : Cases (validateRequest cfg i) = Cases i.
Proof. unfold validateRequest. destruct (Limits i); auto. Qed.

(* A request with an input all of whose cases have a weight (as every one decoded from
   JSON has) does not panic; it is answered with a compile error exactly if the capped
   input is not acceptable; and the maximum score is the sum of the weights. *)
Theorem C62_prepare : forall marshal make_tar sha1 libinteractive o order cfg r i, any_order o -> (forall l, Permutation l (order l)) ->
  Input r = Some i -> NoDup (map fst (Cases i)) -> complete (Cases i) ->
  match prepare (NewLiteralInputFactory marshal make_tar sha1 libinteractive o) order cfg r with
  | Crashes => False
  | Invalid e m => NewLiteralInputFactory marshal make_tar sha1 libinteractive o (validateRequest cfg i) = Rejected e /\ m == total_weight (Cases i)
  | Prepared h m => m == total_weight (Cases i) /\
      exists f, NewLiteralInputFactory marshal make_tar sha1 libinteractive o (validateRequest cfg i) = Accepted f /\ h = f_hash f
  end.
Proof.
  intros mar tar sha lib o order cfg r i HO HP E ND C. unfold prepare. rewrite E. rewrite capped_cases.
  destruct (max_score_some (order (Cases i)) 0 (complete_perm _ _ (HP _) C)) as (m & A & B). rewrite A.
  assert (M : m == total_weight (Cases i)). { rewrite B, <- (perm_total _ _ (HP (Cases i))). ring. }
  destruct (NewLiteralInputFactory _ _ _ _ _ _) as [f|e|] eqn:F.
  - split; [auto|]. exists f. auto.
  - auto.
  - rewrite <- (capped_cases cfg i) in ND, C. destruct (C35_rejected mar tar sha lib o o (validateRequest cfg i) NoWeight HO HO ND C) as [Q _]. contradiction.
Qed.
Print Assumptions C62_prepare.
(* Without an input the request panics. *)
Theorem C62_no_input_refuted : forall factory_of order cfg, exists r, prepare factory_of order cfg r = Crashes.
Proof. intros. exists {| Source := ""; Language := "cat"; Input := None |}. reflexivity. Qed.
Print Assumptions C62_no_input_refuted.

(* ---- C62: the run ---- *)
Section Run.
Variable token : string.
Variable reads_work removes_work : bool.
Variable details logs tracing request_json : string.
Notation handler := (handler token reads_work removes_work request_json).
Notation others := (others details logs tracing).
Notation reachable := (reachable token reads_work removes_work details logs tracing request_json).

(* What the answer starts with, at each place. *)
Definition opened (r : list seen) (o : list seen) : Prop := o = Status 200 (Some token) :: Field "waiting" :: Field "queueing" :: r.
Definition maybe_running (r : list seen) : Prop := r = [] \/ r = [Field "running"].
(* The directory of a closed run. *)
Definition closed_dir (d : string -> option string) : Prop := d "details.json" = Some details /\ d "logs.txt.gz" = Some logs /\ d "tracing.json.gz" = Some tracing.
Definition sent_so_far (d : string -> option string) (done_ : list string) (l : list seen) : Prop :=
  files_sent d done_ l /\ (reads_work = true -> l = all_files d done_).
Definition inv (s : state) : Prop :=
  (run s = ReadyClosed -> at_ s <> CleaningUp -> at_ s <> Returned -> exists d, grade_dir s = Some d /\ closed_dir d) /\
  (ref s = true -> at_ s <> Adding) /\
  (submitted s = true <-> run s <> Unqueued) /\
  (run s = Closing \/ run s = ReadyClosed \/ run s = Stuck -> ref s = false) /\
  (committed s = true -> at_ s = Returned) /\
  match at_ s with
  | Adding => out s = [] /\ run s = Unqueued /\ grade_dir s = None /\ ref s = false
  | MakingDir => out s = [] /\ run s = Unqueued /\ grade_dir s = None /\ ref s = true
  | Announcing => out s = [] /\ run s = Unqueued
  | Enqueueing => out s = [Status 200 (Some token); Field "waiting"] /\ run s = Unqueued
  | Reporting => out s = [Status 200 (Some token); Field "waiting"] /\ run s <> Unqueued
  | Waiting1 => opened [] (out s) /\ run s <> Unqueued
  | Waiting2 => exists r, opened r (out s) /\ maybe_running r /\ run s <> Unqueued
  | Sending ns => exists r l done_ d, opened (r ++ l) (out s) /\ maybe_running r /\ run s = ReadyClosed /\ names = (done_ ++ ns)%list /\ grade_dir s = Some d /\ closed_dir d /\ sent_so_far d done_ l
  | Saving => exists r l d, opened (r ++ l) (out s) /\ maybe_running r /\ run s = ReadyClosed /\ grade_dir s = Some d /\ closed_dir d /\ sent_so_far d names l
  | Committing => exists r l d, opened (r ++ l) (out s) /\ maybe_running r /\ run s = ReadyClosed /\ grade_dir s = Some d /\ closed_dir d /\ sent_so_far d names l /\ d "request.json.gz" = Some request_json
  | CleaningUp => exists r l d, opened (r ++ l) (out s) /\ maybe_running r /\ run s = ReadyClosed /\ closed_dir d /\ sent_so_far d names l
  | Returned =>
      (run s = Unqueued /\ committed s = false /\ grade_dir s = None /\ (out s = [Status 400 None] /\ ref s = false \/ out s = [Status 500 None] /\ ref s = true)) \/
      (run s = ReadyClosed /\ exists r l d, opened (r ++ l) (out s) /\ maybe_running r /\ closed_dir d /\ sent_so_far d names l /\
        (committed s = true /\ grade_dir s = Some d /\ d "request.json.gz" = Some request_json \/ committed s = false /\ (removes_work = true -> grade_dir s = None)))
  end.

Lemma files_snoc d ns l n x : files_sent d ns l -> files_sent d [n] x -> files_sent d (ns ++ [n]) (l ++ x).
Proof. intros H X. induction H; cbn [app]; [exact X|constructor; auto|eapply sent_file; eauto]. Qed.
Lemma all_snoc d ns n : all_files d (ns ++ [n]) = (all_files d ns ++ all_files d [n])%list.
Proof. induction ns as [|m ns IH]; cbn; auto. destruct (d m); cbn; rewrite IH; auto. Qed.
Lemma take_prefix k s : exists b, s = take k s ++ b.
Proof. revert s. induction k as [|k IH]; intros s; [exists s; auto|]. destruct s as [|c s]; [exists ""; auto|]. cbn [take]. destruct (IH s) as [b B]. exists b. cbn [append]. f_equal. exact B. Qed.
Lemma sent_ext d d' ns l : (forall n, In n ns -> d n = d' n) -> files_sent d ns l -> files_sent d' ns l.
Proof. intros E H. induction H; [constructor|constructor; apply IHfiles_sent; intros; apply E; right; auto|]. econstructor; eauto; [apply IHfiles_sent; intros; apply E; right; auto|rewrite <- E; [auto|left; auto]]. Qed.
Lemma all_ext d d' ns : (forall n, In n ns -> d n = d' n) -> all_files d ns = all_files d' ns.
Proof. induction ns as [|n ns IH]; cbn; intros E; auto. rewrite (E n) by auto. rewrite IH by auto. reflexivity. Qed.
Lemma so_far_ext d d' ns l : (forall n, In n ns -> d n = d' n) -> sent_so_far d ns l -> sent_so_far d' ns l.
Proof. intros E [A B]. split; [apply (sent_ext d); auto|]. intros R. rewrite <- (all_ext d d' ns E). auto. Qed.
Lemma store_other d n c m : m <> n -> store_file d n c m = d m.
Proof. intros N. unfold store_file. rewrite (proj2 (String.eqb_neq _ _) N). auto. Qed.
Lemma store_same d n c : store_file d n c n = Some c.
Proof. unfold store_file. rewrite String.eqb_refl. auto. Qed.
Lemma closed_store d c : closed_dir d -> closed_dir (store_file d "request.json.gz" c).
Proof. intros (A & B & C). unfold closed_dir. rewrite !store_other by discriminate. auto. Qed.
Lemma so_far_store d l c : sent_so_far d names l -> sent_so_far (store_file d "request.json.gz" c) names l.
Proof. apply so_far_ext. intros n N. symmetry. apply store_other. cbn in N. intros ->. intuition discriminate. Qed.
Lemma so_far_step d ns l n x : sent_so_far d ns l -> files_sent d [n] x -> (reads_work = true -> x = all_files d [n]) -> sent_so_far d (ns ++ [n]) (l ++ x).
Proof. intros [A B] X Y. split; [apply files_snoc; auto|]. intros R. rewrite all_snoc, B, Y by auto. auto. Qed.

Ltac simp := cbn [at_ out grade_dir ref run running committed submitted go set_dir set_ref set_run set_running commit submit] in *.
Ltac basic := repeat split; simp; auto; try congruence; try (intros; congruence); try (intros [H0|[H0|H0]]; congruence).
Lemma inv_start : inv start.
Proof. unfold inv, start. basic. Qed.
Lemma waiting s : inv s -> run s <> Unqueued -> run s <> ReadyClosed ->
  (at_ s = Reporting /\ out s = [Status 200 (Some token); Field "waiting"]) \/ (at_ s = Waiting1 /\ opened [] (out s)) \/ (at_ s = Waiting2 /\ exists r, opened r (out s) /\ maybe_running r).
Proof.
  intros (I1 & I2 & I3 & I4 & I5 & I6) U R. destruct (at_ s); try (exfalso; destruct I6 as (? & ? & ?); congruence); try (exfalso; destruct I6 as (? & ?); congruence).
  - left. destruct I6; auto.
  - right. left. destruct I6; auto.
  - right. right. destruct I6 as (r & A & B & _). eauto.
  - destruct I6 as (? & ? & ? & ? & ? & ? & ? & _). contradiction.
  - destruct I6 as (? & ? & ? & ? & ? & ? & _). contradiction.
  - destruct I6 as (? & ? & ? & ? & ? & ? & _). contradiction.
  - destruct I6 as (? & ? & ? & ? & ? & ? & _). contradiction.
  - destruct I6 as [(? & _)|(? & _)]; contradiction.
Qed.
Lemma inv_others s s' : inv s -> others s s' -> inv s'.
Proof.
  intros HI H. pose proof HI as (I1 & I2 & I3 & I4 & I5 & I6).
  assert (Q : run s <> Unqueued /\ run s <> ReadyClosed) by (inversion H; split; congruence). destruct Q as [QU QR].
  pose proof (waiting s HI QU QR) as W.
  assert (NC : committed s = false). { destruct (committed s) eqn:E; auto. specialize (I5 eq_refl). destruct W as [[W _]|[[W _]|[W _]]]; congruence. }
  assert (KEEP : at_ s' = at_ s /\ out s' = out s /\ committed s' = committed s /\ submitted s' = submitted s /\ run s' <> Unqueued /\ (ref s' = true -> ref s = true) /\
    (run s' = ReadyClosed -> exists d, grade_dir s' = Some d /\ closed_dir d) /\ (run s' = Closing \/ run s' = ReadyClosed \/ run s' = Stuck -> ref s' = false)).
  { inversion H; subst; simp; repeat split; try tauto; try congruence.
    all: try (intros _; apply I4; auto; fail).
    all: try (intros _; eexists; split; [reflexivity|]; unfold closed_dir; repeat split; repeat (rewrite store_same || rewrite store_other by discriminate); auto). }
  destruct KEEP as (K1 & K2 & K3 & K4 & K5 & K6 & K7 & K8). unfold inv. rewrite K1, K2, K3, K4.
  split; [intros; apply K7; auto|]. split; [intros R; apply I2; auto|]. split; [split; auto; intros; apply I3; auto|]. split; [auto|]. split; [congruence|].
  destruct W as [[W1 W2]|[[W1 W2]|[W1 (r & W2 & W3)]]]; rewrite W1; auto. exists r. auto.
Qed.
Lemma inv_handler s s' : inv s -> handler s s' -> inv s'.
Proof.
  intros HI H. pose proof HI as (I1 & I2 & I3 & I4 & I5 & I6). unfold inv. inversion H; subst; rewrite H0 in *; simp; rewrite ?app_nil_r.
  all: assert (NC : committed s = false) by (destruct (committed s) eqn:E; auto; specialize (I5 eq_refl); discriminate I5).
  all: try (destruct I6 as (J1 & J2 & J3); split; [intros R _ _; congruence|]; split; [intros ?; discriminate|]; split; [assumption|]; split; [intros [R|[R|R]]; congruence|];
    split; [intros ?; congruence|]; rewrite J1; cbn [app]; try destruct J3; repeat split; auto 10; fail).
  all: try (destruct I6 as (J1 & J2); split; [intros R _ _; congruence|]; split; [intros ?; discriminate|]; split; [first [assumption|split; congruence]|]; split; [intros [R|[R|R]]; congruence|];
    split; [intros ?; congruence|]; rewrite J1; cbn [app]; repeat split; auto 10; congruence).
  - (* Reporting *) destruct I6 as (J1 & J2). split; [intros R _ _; apply I1; auto; discriminate|]. do 4 (split; [first [assumption | intros ?; congruence | tauto | intros ?; discriminate | intros ?; apply I4; auto]|]). unfold opened. rewrite J1. auto.
  - (* Waiting1, running *) destruct I6 as (J1 & J2). split; [intros R _ _; apply I1; auto; discriminate|]. do 4 (split; [first [assumption | intros ?; congruence | tauto | intros ?; discriminate | intros ?; apply I4; auto]|]).
    exists [Field "running"]. unfold opened, maybe_running in *. rewrite J1. auto.
  - destruct I6 as (J1 & J2). split; [intros R _ _; apply I1; auto; discriminate|]. do 4 (split; [first [assumption | intros ?; congruence | tauto | intros ?; discriminate | intros ?; apply I4; auto]|]). exists []. unfold maybe_running. auto.
  - (* Waiting2 *) destruct I6 as (r & J1 & J2 & J3). split; [intros R _ _; apply I1; auto; discriminate|]. do 4 (split; [first [assumption | intros ?; congruence | tauto | intros ?; discriminate | intros ?; apply I4; auto]|]).
    destruct I1 as (d & D1 & D2); auto; try discriminate. exists r, [], [], d. rewrite app_nil_r. repeat split; auto; try apply D2. constructor.
  - (* skips *) destruct I6 as (r & l & dn & d & J1 & J2 & J3 & J4 & J5 & J6 & J7). split; [intros R _ _; eauto|]. do 4 (split; [first [assumption | intros ?; congruence | tauto | intros ?; discriminate | intros ?; apply I4; auto]|]).
    exists r, l, (dn ++ [n])%list, d. rewrite <- app_assoc. repeat split; auto; try apply J6; destruct J7 as [A B].
    + rewrite <- (app_nil_r l). apply files_snoc; auto. constructor. constructor.
    + intros R. rewrite all_snoc, (B R). cbn [all_files]. rewrite (H1 R d J5), app_nil_r. auto.
  - (* sends *) destruct I6 as (r & l & dn & d' & J1 & J2 & J3 & J4 & J5 & J6 & J7). rewrite H1 in J5. injection J5 as <-. split; [intros R _ _; eauto|]. do 4 (split; [first [assumption | intros ?; congruence | tauto | intros ?; discriminate | intros ?; apply I4; auto]|]).
    exists r, (l ++ [FilePart n c])%list, (dn ++ [n])%list, d. rewrite <- app_assoc. split; [unfold opened in *; rewrite J1, <- !app_comm_cons, app_assoc; auto|].
    repeat (split; [solve [auto]|]). apply so_far_step; auto; [|intros _; cbn; rewrite H2; auto].
    eapply (sent_file _ _ _ _ c c ""); [constructor|auto|]. clear. induction c as [|a c IH]; [auto|]. cbn [append]. rewrite <- IH. auto.
  - (* sends a part *) destruct I6 as (r & l & dn & d' & J1 & J2 & J3 & J4 & J5 & J6 & J7). rewrite H2 in J5. injection J5 as <-. split; [intros R _ _; eauto|]. do 4 (split; [first [assumption | intros ?; congruence | tauto | intros ?; discriminate | intros ?; apply I4; auto]|]).
    exists r, (l ++ [FilePart n (take k c)])%list, (dn ++ [n])%list, d. rewrite <- app_assoc. split; [unfold opened in *; rewrite J1, <- !app_comm_cons, app_assoc; auto|].
    repeat (split; [solve [auto]|]). apply so_far_step; auto; [|congruence].
    destruct (take_prefix k c) as [b B]. eapply (sent_file _ _ _ _ c _ b); [constructor|auto|auto].
  - (* all sent *) destruct I6 as (r & l & dn & d & J1 & J2 & J3 & J4 & J5 & J6 & J7). rewrite app_nil_r in J4. subst dn. split; [intros R _ _; eauto|]. do 4 (split; [first [assumption | intros ?; congruence | tauto | intros ?; discriminate | intros ?; apply I4; auto]|]).
    exists r, l, d. auto 10.
  - (* saves *) destruct I6 as (r & l & d' & J1 & J2 & J3 & J4 & J5 & J6). rewrite H1 in J4. injection J4 as <-. split; [intros R _ _; eexists; split; [reflexivity|apply closed_store; auto]|]. do 4 (split; [first [assumption | intros ?; congruence | tauto | intros ?; discriminate | intros ?; apply I4; auto]|]).
    exists r, l, (store_file d "request.json.gz" request_json). split; [auto|]. split; [auto|]. split; [auto|]. split; [reflexivity|]. split; [apply closed_store; auto|]. split; [exact (so_far_store _ _ _ J6)|apply store_same].
  - destruct I6 as (r & l & d' & J1 & J2 & J3 & J4 & J5 & J6). split; [intros R A1 A2; first [elim A1; reflexivity | elim A2; reflexivity]|]. do 4 (split; [first [assumption | intros ?; congruence | tauto | intros ?; discriminate | intros ?; apply I4; auto]|]). exists r, l, d'. auto.
  - destruct I6 as (r & l & d' & J1 & J2 & J3 & J4 & J5 & J6). split; [intros R A1 A2; first [elim A1; reflexivity | elim A2; reflexivity]|]. do 4 (split; [first [assumption | intros ?; congruence | tauto | intros ?; discriminate | intros ?; apply I4; auto]|]). exists r, l, d'. auto.
  - (* commits *) destruct I6 as (r & l & d & J1 & J2 & J3 & J4 & J5 & J6 & J7). split; [intros R A1 A2; first [elim A1; reflexivity | elim A2; reflexivity]|]. do 4 (split; [first [assumption | intros ?; congruence | tauto | intros ?; discriminate | intros ?; apply I4; auto]|]). right. split; [auto|]. exists r, l, d. auto 10.
  - destruct I6 as (r & l & d & J1 & J2 & J3 & J4 & J5). split; [intros R A1 A2; first [elim A1; reflexivity | elim A2; reflexivity]|]. do 4 (split; [first [assumption | intros ?; congruence | tauto | intros ?; discriminate | intros ?; apply I4; auto]|]). right. split; [auto|]. exists r, l, d. auto 10.
  - destruct I6 as (r & l & d' & J1 & J2 & J3 & J4 & J5). split; [intros R A1 A2; first [elim A1; reflexivity | elim A2; reflexivity]|]. do 4 (split; [first [assumption | intros ?; congruence | tauto | intros ?; discriminate | intros ?; apply I4; auto]|]). right. split; [auto|]. exists r, l, d'. repeat (split; [auto|]). right. split; [auto|]. congruence.
Qed.
Lemma inv_reachable s : reachable s -> inv s.
Proof. induction 1; [apply inv_start|eapply inv_handler; eauto|eapply inv_others; eauto]. Qed.

(* A request whose input is acceptable is answered, when it is, with 400 if the input
   could not be stored, with 500 if no directory could be made (and then nothing was
   queued), and else with 200 and the token, the states the run went through and, if
   they can be read, the log, the files and the result of the run in its directory, as
   it was when the run was finished. *)
Theorem C62_answers : forall s, reachable s -> at_ s = Returned ->
  submitted s = false /\ committed s = false /\ grade_dir s = None /\ (out s = [Status 400 None] \/ out s = [Status 500 None]) \/
  run s = ReadyClosed /\ exists d, answer token d reads_work (out s) /\ d "details.json" = Some details /\ d "logs.txt.gz" = Some logs /\
    (committed s = true -> grade_dir s = Some d).
Proof.
  intros s R E. destruct (inv_reachable s R) as (_ & _ & I3 & _ & _ & I). rewrite E in I. destruct I as [(A & B & C & D)|(A & r & l & d & B & C & D & F & G)].
  - left. split; [destruct (submitted s); auto; exfalso; apply I3; auto|]. split; [auto|]. split; [auto|]. destruct D as [[D _]|[D _]]; auto.
  - right. split; [auto|]. exists d. destruct D as (D1 & D2 & D3), F as [F1 F2]. split; [apply (answer_run _ _ _ _ r l); auto|]. split; [auto|]. split; [auto|].
    intros K. destruct G as [(G & G1 & _)|[G _]]; [auto|congruence].
Qed.
(* What is left of a run: if it was committed, its directory has the result, the log,
   the trace and the request; if not, no directory is left, as long as removing works.
   A reference to the input is held no longer, except after a 500. *)
Theorem C62_left : forall s, reachable s -> at_ s = Returned ->
  (committed s = true -> exists d, grade_dir s = Some d /\ d "details.json" = Some details /\ d "logs.txt.gz" = Some logs /\ d "tracing.json.gz" = Some tracing /\ d "request.json.gz" = Some request_json) /\
  (committed s = false -> removes_work = true -> grade_dir s = None) /\
  (ref s = false \/ out s = [Status 500 None]).
Proof.
  intros s R E. destruct (inv_reachable s R) as (_ & _ & I3 & I4 & _ & I). rewrite E in I. destruct I as [(A & B & C & D)|(A & r & l & d & B & C & D & F & G)].
  - repeat split; [congruence|auto|]. destruct D as [[_ D]|[D _]]; auto.
  - destruct G as [(G & G1 & G2)|[G1 G2]]; (split; [|split; [|left; apply I4; auto]]); try congruence; auto.
    intros _. exists d. destruct D as (D1 & D2 & D3). auto.
Qed.
(* A token is served only after everything was sent (C63: only runs that were committed
   are). *)
Theorem C62_committed_last : forall s, reachable s -> committed s = true -> at_ s = Returned /\ run s = ReadyClosed.
Proof.
  intros s R K. destruct (inv_reachable s R) as (_ & _ & _ & _ & I5 & I). specialize (I5 K). split; [auto|]. rewrite I5 in I. destruct I as [(A & B & _)|(A & _)]; [congruence|auto].
Qed.
(* The handler waits for nothing but the run (and for room in the queue, which is not
   modelled here). *)
Theorem C62_progress : forall s, reachable s -> at_ s = Returned \/ (exists s', handler s s') \/
  (at_ s = Waiting1 /\ running s = false \/ at_ s = Waiting2) /\ run s <> ReadyClosed /\ submitted s = true.
Proof.
  intros s R. destruct (inv_reachable s R) as (I1 & _ & I3 & _ & _ & I). destruct (at_ s) as [| | | | | | |todo| | | |] eqn:E; auto; try (right; left; eexists; constructor; exact E; fail).
  - destruct I as [_ I]. destruct (running s) eqn:RU; [right; left; eexists; apply sees_running; auto|].
    destruct (run s) eqn:RS; try (right; right; split; [auto|]; split; [discriminate|apply I3; auto]; fail). right. left. eexists. apply sees_ready; auto.
  - destruct I as (r & _ & _ & I). destruct (run s) eqn:RS; try (right; right; split; [auto|]; split; [discriminate|apply I3; auto]; fail). right. left. eexists. apply waited; auto.
  - destruct I as (r & l & dn & d & _ & _ & _ & _ & D & _). right. left. destruct todo as [|n ns]; [eexists; apply all_sent; auto|].
    destruct (d n) as [c|] eqn:DN; [eexists; eapply sends; eauto|]. eexists. eapply skips; [exact E|]. intros _ d' D'. congruence.
Qed.
End Run.
Print Assumptions C62_answers.
Print Assumptions C62_left.
Print Assumptions C62_committed_last.
Print Assumptions C62_progress.

(* ---- Executions ---- *)
Section Executions.
Variable token : string.
Variable reads_work removes_work : bool.
Variable details logs tracing request_json : string.
Notation handler := (handler token reads_work removes_work request_json).
Notation others := (others details logs tracing).
Notation reachable := (reachable token reads_work removes_work details logs tracing request_json).
Lemma rh s s' : reachable s -> handler s s' -> reachable s'. Proof. apply reach_handler. Qed.
Lemma ro s s' : reachable s -> others s s' -> reachable s'. Proof. apply reach_others. Qed.
Tactic Notation "h" uconstr(t) hyp(R) := eapply rh in R; [|eapply t; try reflexivity; try discriminate]; cbn [at_ out grade_dir ref run running committed submitted go set_dir set_ref set_run set_running commit submit app] in R.
Tactic Notation "o" uconstr(t) hyp(R) := eapply ro in R; [|eapply t; try reflexivity]; cbn [at_ out grade_dir ref run running committed submitted go set_dir set_ref set_run set_running commit submit app] in R.
(* A run is taken by a runner, which uploads files.zip, and answered completely. *)
Example C62_met : exists s, reachable s /\ at_ s = Returned /\ committed s = true /\
  out s = [Status 200 (Some token); Field "waiting"; Field "queueing"; Field "running"; FilePart "logs.txt.gz" logs; FilePart "files.zip" "zip"; FilePart "details.json" details].
Proof.
  assert (R : reachable start) by constructor. unfold start in R.
  h adds R. h makes_dir R. h announces R. h enqueues R. o picked_up R. h reports R. h sees_running R.
  o (uploaded _ _ _ _ (Some (store_file empty "files.zip" "zip"))) R. o closes R. o closed_well R; [|left; reflexivity].
  h waited R. h sends R. h sends R. h sends R. h all_sent R. h saves R. h commits R.
  eexists. split; [exact R|]. repeat split.
Qed.
(* Whoever asks for a run can be told a token that is never served, although no read
   and no removal fails: if the request cannot be saved. *)
Theorem C62_token_refuted : exists s, reachable s /\ at_ s = Returned /\ committed s = false /\ In (Status 200 (Some token)) (out s) /\ In (FilePart "details.json" details) (out s).
Proof.
  assert (R : reachable start) by constructor. unfold start in R.
  h adds R. h makes_dir R. h announces R. h enqueues R. o picked_up R. h reports R. h sees_running R.
  o (uploaded _ _ _ _ (Some (store_file empty "files.zip" "zip"))) R. o closes R. o closed_well R; [|left; reflexivity].
  h waited R. h sends R. h sends R. h sends R. h all_sent R. h save_fails R. h cleans_up R.
  eexists. split; [exact R|]. repeat split; cbn; auto 10.
Qed.
(* If no directory can be made the reference to the input is kept for ever. *)
Theorem C62_leak_refuted : exists s, reachable s /\ at_ s = Returned /\ ref s = true /\ forall s', ~ handler s s' /\ ~ others s s'.
Proof.
  assert (R : reachable start) by constructor. unfold start in R.
  h adds R. h make_dir_fails R. eexists. split; [exact R|]. cbn [at_ ref]. split; [auto|]. split; [auto|]. intros s'. split; intros H; inversion H; discriminate.
Qed.
(* If the result of the run cannot be written the request is never answered. *)
Theorem C62_answered_refuted : exists s, reachable s /\ out s = [Status 200 (Some token); Field "waiting"; Field "queueing"; Field "running"] /\ forall s', ~ handler s s' /\ ~ others s s'.
Proof.
  assert (R : reachable start) by constructor. unfold start in R.
  h adds R. h makes_dir R. h announces R. h enqueues R. o picked_up R. h reports R. h sees_running R. o closes R. o (close_fails _ _ _ _ None) R.
  eexists. split; [exact R|]. split; [reflexivity|]. intros s'. split; intros H; inversion H; discriminate.
Qed.
End Executions.
Print Assumptions C62_token_refuted.
Print Assumptions C62_leak_refuted.
Print Assumptions C62_answered_refuted.

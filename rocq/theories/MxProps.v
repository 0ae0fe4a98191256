(* C83: who reaches what over HTTP. *)
From Coq Require Import String Ascii List ZArith Bool Lia.
From Verif Require Import TrcModel GoStr InModel GtModel CfModel CfSpec CfProofs MxModel MxSpec MxProofs.
Import ListNotations.
Local Open Scope string_scope.

(* ---- dispatch ---- *)
(* A handler gets a request exactly as it was sent, and it is the one with the most
   specific pattern; except for CONNECT, its path is canonical: no .., nothing empty. *)
Theorem C83_handled : forall ps connect p h q, serve_mux ps connect p = Handled h q ->
  q = p /\ most_specific ps p h /\ (connect = false -> exists l d, canonical l d p).
Proof.
  intros ps connect p h q. unfold serve_mux, handler. pose proof (match_spec ps p) as M. destruct connect.
  - destruct (shouldRedirect ps p); [intros X; discriminate X|]. destruct (match_ ps p) as [h'|]; intros X; [|discriminate X]. injection X as -> ->.
    split; [reflexivity|]. split; [exact M|]. intros Y; discriminate Y.
  - destruct (shouldRedirect ps (cleanPath p)); [intros X; discriminate X|]. destruct (String.eqb_spec (cleanPath p) p) as [E|N]; cbn [negb]; [|intros X; discriminate X].
    destruct (match_ ps p) as [h'|]; intros X; [|discriminate X]. injection X as -> ->. split; [reflexivity|]. split; [exact M|]. intros _.
    destruct (cleanPath_spec q) as (l & d & C & _). rewrite E in C. eauto.
Qed.
Print Assumptions C83_handled.
(* 404 only if there is no handler. *)
Theorem C83_not_found : forall ps connect p, serve_mux ps connect p = NotFound -> forall h, In h ps -> ~ covers h p.
Proof.
  intros ps connect p. unfold serve_mux, handler. pose proof (match_spec ps p) as M.
  destruct connect; [destruct (shouldRedirect ps p)|destruct (shouldRedirect ps (cleanPath p)); [|destruct (negb (cleanPath p =? p))]]; try (intros X; discriminate X);
    (destruct (match_ ps p) as [h'|]; intros X; [discriminate X|exact M]).
Qed.
Print Assumptions C83_not_found.
(* A redirect names the same place canonically, perhaps with the slash the handler has,
   and whoever follows it gets an answer that is not a redirect. *)
Lemma canonical_false l d p : canonical l d p -> slash_ended p = false -> d = false /\ canonical l true (p ++ "/").
Proof.
  intros C E. destruct C as [|l N P|l N P]; [discriminate E| |].
  - split; [reflexivity|]. rewrite app_assoc_s. now constructor.
  - rewrite <- app_assoc_s, ended in E. discriminate E.
Qed.
Theorem C83_redirect : forall ps p q, serve_mux ps false p = Redirect q ->
  q <> p /\ (exists l d, canonical l d q /\ simplifies (split "/" p) l) /\ (exists h, serve_mux ps false q = Handled h q \/ serve_mux ps false q = NotFound).
Proof.
  intros ps p q R. assert (G : (exists l d, canonical l d q /\ simplifies (split "/" p) l) /\ (exists h, serve_mux ps false q = Handled h q \/ serve_mux ps false q = NotFound)).
  { unfold serve_mux in R. destruct (cleanPath_spec p) as (l & d & C & S). destruct (shouldRedirect ps (cleanPath p)) eqn:Sh.
    - injection R as <-. unfold shouldRedirect in Sh. repeat rewrite andb_true_iff in Sh. destruct Sh as (((_ & _) & Ex) & En).
      apply negb_true_iff in En. destruct (canonical_false _ _ _ C En) as (_ & C'). split; [eauto|]. exists (cleanPath p ++ "/").
      left. unfold serve_mux. rewrite (clean_canonical _ _ _ C'). unfold shouldRedirect. rewrite Ex. cbn [negb andb]. rewrite String.eqb_refl. cbn [negb].
      unfold handler, match_. rewrite Ex. reflexivity.
    - destruct (negb (cleanPath p =? p)) eqn:N; [|unfold handler in R; destruct (match_ ps p); discriminate R]. injection R as <-. split; [eauto|].
      unfold serve_mux. rewrite (clean_canonical _ _ _ C), Sh, String.eqb_refl. cbn [negb]. unfold handler. destruct (match_ ps (cleanPath p)) as [h|]; [exists h; now left|exists ""; now right]. }
  split; [|exact G]. intros ->. destruct G as (_ & h & [G|G]); rewrite R in G; discriminate G.
Qed.
Print Assumptions C83_redirect.

(* ---- who ---- *)
Section Who.
Context {cert : Type}.
Variable verifies : string -> cert -> bool.
Variable common_name : cert -> string.
Notation answer := (answer verifies).
(* Nobody with a certificate for this server. *)
Definition stranger (file : string) (r : @request cert) : Prop := forall k, r_cert r = Some k -> verifies file k = false.
Definition known (file : string) (r : @request cert) : Prop := exists k, r_cert r = Some k /\ verifies file k = true.
Lemma answer_handled s r h q : answer s r = Handled h q ->
  serve_mux (mux s) (r_connect r) (r_path r) = Handled h q /\ match clients s with None => True | Some file => known file r end.
Proof.
  unfold MxModel.answer, known. destruct (clients s) as [file|]; [|auto]. destruct (r_cert r) as [k|] eqn:K; [|intros X; discriminate X].
  destruct (verifies file k) eqn:V; [|intros X; discriminate X]. intros X. split; [exact X|eauto].
Qed.
Lemma stranger_unknown file r : stranger file r -> known file r -> False.
Proof. intros S (k & K & V). specialize (S k K). congruence. Qed.
Lemma handled_in ps connect p h q : serve_mux ps connect p = Handled h q -> In h ps.
Proof. intros H. apply C83_handled in H as (_ & M & _). apply M. Qed.

Theorem grader_public c s r h q : In s (grader_servers c false) -> stranger (text c ["TLS"; "CertFile"]) r -> answer s r = Handled h q ->
  s = metrics_server c /\ h = "/metrics" \/
  s = web_server c /\ (h = "/ephemeral/run/" \/ h = "/ci/") /\
    (flag c ["Grader"; "Ephemeral"; "Proxied"] = true \/ known (text c ["Grader"; "Ephemeral"; "TLS"; "CertFile"]) r).
Proof.
  intros I S A. apply answer_handled in A as (A & K). apply handled_in in A. destruct I as [<-|[<-|[<-|[<-|[]]]]]; cbn in A, K.
  - left. split; [reflexivity|]. now destruct A as [<-|[]].
  - right. split; [reflexivity|]. split; [destruct A as [<-|[<-|[]]]; auto|]. destruct (flag c ["Grader"; "Ephemeral"; "Proxied"]); auto.
  - exfalso. exact (stranger_unknown _ _ S K).
  - exfalso. exact (stranger_unknown _ _ S K).
Qed.
Theorem broadcaster_public c s r h q : In s (broadcaster_servers c false) -> stranger (text c ["Broadcaster"; "TLS"; "CertFile"]) r -> answer s r = Handled h q ->
  s = metrics_server c /\ h = "/metrics" \/ s = events_server c /\ h = "/" /\ flag c ["Broadcaster"; "Proxied"] = true.
Proof.
  intros I S A. apply answer_handled in A as (A & K). apply handled_in in A. destruct I as [<-|[<-|[<-|[]]]]; cbn in A, K.
  - left. split; [reflexivity|]. now destruct A as [<-|[]].
  - right. split; [reflexivity|]. destruct A as [<-|[]]. split; [reflexivity|]. destruct (flag c ["Broadcaster"; "Proxied"]); [reflexivity|]. exfalso. exact (stranger_unknown _ _ S K).
  - exfalso. exact (stranger_unknown _ _ S K).
Qed.
Theorem peer_name c insecure r h q : answer (runner_server c insecure) r = Handled h q -> exists name, peerName common_name insecure (runner_server c insecure) r = Some name /\
  (insecure = true -> name = r_addr r) /\
  (insecure = false -> exists k, r_cert r = Some k /\ verifies (text c ["TLS"; "CertFile"]) k = true /\ name = common_name k).
Proof.
  intros A. apply answer_handled in A as (_ & K). unfold peerName, tls_state. destruct insecure.
  - exists (r_addr r). split; [reflexivity|]. split; [reflexivity|]. intros X; discriminate X.
  - cbn in K |- *. destruct K as (k & K & V). rewrite K. exists (common_name k). split; [reflexivity|]. split; [intros X; discriminate X|]. intros _. eauto.
Qed.
End Who.

(* Without a certificate, and without -insecure, only the metrics and the web interface
   (if behind a proxy) of the grader can be reached: no run can be made, requested,
   graded, read or regraded, and no input fetched. *)
Theorem C83_grader_public : forall {cert} (verifies : string -> cert -> bool) c s r h q,
  In s (grader_servers c false) -> stranger verifies (text c ["TLS"; "CertFile"]) r -> answer verifies s r = Handled h q ->
  s = metrics_server c /\ h = "/metrics" \/
  s = web_server c /\ (h = "/ephemeral/run/" \/ h = "/ci/") /\
    (flag c ["Grader"; "Ephemeral"; "Proxied"] = true \/ known verifies (text c ["Grader"; "Ephemeral"; "TLS"; "CertFile"]) r).
Proof. intros cert verifies c s r h q. apply grader_public. Qed.
Print Assumptions C83_grader_public.
(* ... and of the broadcaster, the metrics and the events: no message can be posted and
   nobody disconnected. *)
Theorem C83_broadcaster_public : forall {cert} (verifies : string -> cert -> bool) c s r h q,
  In s (broadcaster_servers c false) -> stranger verifies (text c ["Broadcaster"; "TLS"; "CertFile"]) r -> answer verifies s r = Handled h q ->
  s = metrics_server c /\ h = "/metrics" \/ s = events_server c /\ h = "/" /\ flag c ["Broadcaster"; "Proxied"] = true.
Proof. intros cert verifies c s r h q. apply broadcaster_public. Qed.
Print Assumptions C83_broadcaster_public.
(* A runner serves its metrics and nothing else. *)
Theorem C83_runner_public : forall {cert} (verifies : string -> cert -> bool) c s r h q,
  In s (runner_servers c) -> answer verifies s r = Handled h q -> h = "/metrics" /\ q = "/metrics".
Proof.
  intros cert verifies c s r h q [<-|[]] A. apply answer_handled in A as (A & _). apply C83_handled in A as (-> & (I & C & _) & _). cbn in I. destruct I as [<-|[]].
  split; [reflexivity|]. destruct C as [C|(a & x & C & _)]; [exact C|]. exfalso. assert (slash_ended "/metrics" = true) by (rewrite C; apply ended). discriminate H.
Qed.
Print Assumptions C83_runner_public.
(* The name under which a runner asks for runs, or sends results, is that of a certificate
   the grader trusts; no handler panics for want of one. *)
Theorem C83_peer_name : forall {cert} (verifies : string -> cert -> bool) common_name c insecure r h q,
  answer verifies (runner_server c insecure) r = Handled h q -> exists name, peerName common_name insecure (runner_server c insecure) r = Some name /\
  (insecure = true -> name = r_addr r) /\
  (insecure = false -> exists k, r_cert r = Some k /\ verifies (text c ["TLS"; "CertFile"]) k = true /\ name = common_name k).
Proof. intros cert verifies common_name c insecure r h q. apply peer_name. Qed.
Print Assumptions C83_peer_name.

(* ---- the runner's requests ---- *)
Lemma proper_single x : proper_name x -> join "/" [x] = x. Proof. reflexivity. Qed.
Lemma serve_canonical ps l d p : canonical l d p -> shouldRedirect ps p = false -> serve_mux ps false p = handler ps p.
Proof. intros C S. unfold serve_mux. rewrite (clean_canonical _ _ _ C), S, String.eqb_refl. reflexivity. Qed.
Lemma ascii_dec_true (c : ascii) (A : Type) (a b : A) : (if ascii_dec c c then a else b) = a.
Proof. destruct (ascii_dec c c); [reflexivity|contradiction]. Qed.
(* What a runner sends reaches the handler it is meant for, whatever the names. *)
Theorem C83_runner_requests : forall attempt names, proper_name attempt -> attempt <> "request" -> names <> [] -> Forall proper_name names ->
  serve_mux runner_patterns false "/run/request/" = Handled "/run/request/" "/run/request/" /\
  serve_mux runner_patterns false ("/run/" ++ attempt ++ "/results/") = Handled "/run/" ("/run/" ++ attempt ++ "/results/") /\
  serve_mux runner_patterns false ("/input/" ++ join "/" names ++ "/") = Handled "/input/" ("/input/" ++ join "/" names ++ "/").
Proof.
  intros x l Px Nx Nl Pl. split; [reflexivity|].
  assert (Pr : proper_name "run" /\ proper_name "results" /\ proper_name "input").
  { repeat split; try discriminate; intros H; cbn in H; unfold contains in H; cbn in H; repeat (destruct H as [H|H]; [discriminate H|]); exact H. }
  destruct Pr as (Prun & Pres & Pin).
  split.
  - assert (C : canonical ["run"; x; "results"] true ("/run/" ++ x ++ "/results/")).
    { assert (H : canonical ["run"; x; "results"] true ("/" ++ join "/" ["run"; x; "results"] ++ "/")) by (apply canonical_dir; [discriminate|repeat constructor; apply Px || apply Prun || apply Pres]).
      cbn [join] in H. change ("/" ++ ("run" ++ String "/" (x ++ String "/" "results")) ++ "/") with ("/run/" ++ (x ++ "/results") ++ "/") in H.
      rewrite app_assoc_s in H. exact H. }
    assert (M : forall h, In h runner_patterns -> covers h ("/run/" ++ x ++ "/results/") -> h = "/run/").
    { intros h I V. assert (Hr : exists r, "/run/" ++ x ++ "/results/" = h ++ r) by (destruct V as [V|(a & r & _ & V)]; [exists ""; rewrite app_nil_s; exact V|eauto]).
      destruct Hr as (r & Hr). cbn in I. destruct I as [<-|[<-|[<-|[<-|[]]]]]; [discriminate Hr| |reflexivity|discriminate Hr].
      exfalso. cbn in Hr. injection Hr as Hr. apply Nx.
      assert (S : split "/" (x ++ "/results/") = split "/" ("request/" ++ r)) by (f_equal; exact Hr).
      cbn [append] in S. change ("/results/")%string with (String "/" "results/") in S. rewrite split_app in S by apply Px.
      change (String "r" (String "e" (String "q" (String "u" (String "e" (String "s" (String "t" (String "/" r)))))))) with ("request" ++ String "/" r) in S.
      rewrite split_app in S; [injection S as S _; exact S|].
      intros H; unfold contains in H; cbn in H; repeat (destruct H as [H|H]; [discriminate H|]); exact H. }
    rewrite (serve_canonical _ _ _ _ C).
    + unfold handler. pose proof (match_spec runner_patterns ("/run/" ++ x ++ "/results/")) as Sp. destruct (match_ runner_patterns _) as [h|].
      * destruct Sp as (I & V & _). now rewrite (M h I V).
      * exfalso. apply (Sp "/run/"); [cbn; auto|]. right. exists "/run", (x ++ "/results/"). split; reflexivity.
    + unfold shouldRedirect. replace (slash_ended ("/run/" ++ x ++ "/results/")) with true; [now rewrite andb_false_r|]. symmetry.
      change "/results/" with ("/results" ++ "/"). rewrite <- !app_assoc_s. apply ended.
  - assert (C : canonical ("input" :: l) true ("/input/" ++ join "/" l ++ "/")).
    { assert (H : canonical ("input" :: l) true ("/" ++ join "/" ("input" :: l) ++ "/")) by (apply canonical_dir; [discriminate|constructor; [apply Pin|exact Pl]]).
      destruct l as [|y l]; [contradiction|]. exact H. }
    remember (join "/" l) as y eqn:Y. clear Y.
    rewrite (serve_canonical _ _ _ _ C).
    + unfold handler. pose proof (match_spec runner_patterns ("/input/" ++ y ++ "/")) as Sp. destruct (match_ runner_patterns _) as [h|].
      * destruct Sp as (I & V & _). assert (Hr : exists r, "/input/" ++ y ++ "/" = h ++ r) by (destruct V as [V|(a & r & _ & V)]; [exists ""; rewrite app_nil_s; exact V|eauto]).
        destruct Hr as (r & Hr). cbn in I. destruct I as [<-|[<-|[<-|[<-|[]]]]]; [discriminate Hr|discriminate Hr|discriminate Hr|reflexivity].
      * exfalso. apply (Sp "/input/"); [cbn; auto|]. right. exists "/input", (y ++ "/"). split; reflexivity.
    + unfold shouldRedirect. replace (slash_ended ("/input/" ++ y ++ "/")) with true; [now rewrite andb_false_r|]. symmetry. rewrite <- app_assoc_s. apply ended.
Qed.
Print Assumptions C83_runner_requests.

(* ---- what is not so ---- *)
(* Runners are not confined to the runners' interface: their certificate is as good on the
   frontend's, where they can make runs, read sources and the configuration. *)
Theorem C83_runner_confined_refuted : forall {cert} (verifies : string -> cert -> bool) c insecure k addr h q r0,
  answer verifies (runner_server c insecure) (Request (Some k) false r0 addr) = Handled h q ->
  forall p, In p ["/run/new/1"; "/submission/source/1"; "/debug/vars"; "/broadcast/"] ->
  exists h', answer verifies (frontend_server c insecure) (Request (Some k) false p addr) = Handled h' p.
Proof.
  intros cert verifies c insecure k addr h q r0 A p I. apply answer_handled in A as (_ & K). cbn in K.
  assert (S : exists h', serve_mux (debug_patterns ++ frontend_patterns) false p = Handled h' p)
    by (destruct I as [<-|[<-|[<-|[<-|[]]]]]; eexists; vm_compute; reflexivity).
  destruct S as (h' & S). exists h'. unfold answer. cbn. destruct insecure; [exact S|]. destruct K as (k' & E & V). cbn in E. injection E as <-. rewrite V. exact S.
Qed.
Print Assumptions C83_runner_confined_refuted.
(* What /debug/vars shows of the configuration, for one. *)
Fixpoint json_at (j : json) (p : list string) : option json :=
  match p, j with
  | [], _ => Some j
  | f :: p, JObj l => match find_field l f with Some j => json_at j p | None => None end
  | _, _ => None
  end.
Theorem C83_published : forall show_dur show_byte c p s, value_at c p = Some (CStr s) -> json_at (encode show_dur show_byte c) p = Some (JStr (RrModel.clean s)).
Proof.
  intros sd sb c p s. revert c. induction p as [|f p IH]; intros c E.
  - destruct c; cbn in E; try discriminate E. injection E as ->. reflexivity.
  - destruct c as [| | | | |vs]; try discriminate E. rewrite encode_struct. cbn [value_at json_at] in *.
    assert (F : find_field (enc_fields sd sb vs) f = option_map (encode sd sb) (find_field vs f)).
    { clear. induction vs as [|[g v] vs IH]; cbn [enc_fields find_field]; [reflexivity|]. destruct (g =? f); [reflexivity|exact IH]. }
    rewrite F. destruct (find_field vs f) as [v|]; [|discriminate E]. cbn. now apply IH.
Qed.
Print Assumptions C83_published.
(* Without a proxy the public interfaces are not public: browsers would need a certificate. *)
Theorem C83_unproxied_refuted : forall {cert} (verifies : string -> cert -> bool) c connect p addr,
  (flag c ["Broadcaster"; "Proxied"] = false -> answer verifies (events_server c) (Request None connect p addr) = Refused) /\
  (flag c ["Grader"; "Ephemeral"; "Proxied"] = false -> answer verifies (web_server c) (Request None connect p addr) = Refused).
Proof.
  intros cert verifies c connect p addr. split; intros F; unfold answer, events_server, web_server, RunServer; rewrite F; reflexivity.
Qed.
Print Assumptions C83_unproxied_refuted.
(* CONNECT is not canonicalised. *)
Theorem C83_connect_refuted : serve_mux runner_patterns true "/run/../input//x" = Handled "/run/" "/run/../input//x" /\
  serve_mux runner_patterns false "/run/../input//x" = Redirect "/input/x".
Proof. split; vm_compute; reflexivity. Qed.
Print Assumptions C83_connect_refuted.

(* ---- cases that meet the hypotheses ---- *)
Definition ex_verifies (file : string) (k : string) : bool := file =? k.
Definition ex_runner : @request string := Request (Some "/etc/omegaup/grader/certificate.pem") false "/run/7/results/" "10.0.0.1:5".
Definition ex_stranger : @request string := Request None false "/ephemeral/run/new/" "10.0.0.9:5".
Example ex_runner_reaches : answer ex_verifies (runner_server defaultConfig false) ex_runner = Handled "/run/" "/run/7/results/".
Proof. vm_compute. reflexivity. Qed.
Example ex_stranger_is : stranger ex_verifies (text defaultConfig ["TLS"; "CertFile"]) ex_stranger.
Proof. intros k X. discriminate X. Qed.
Example ex_stranger_web : answer ex_verifies (web_server defaultConfig) ex_stranger = Handled "/ephemeral/run/" "/ephemeral/run/new/".
Proof. vm_compute. reflexivity. Qed.
Example ex_stranger_runner : map (fun s => answer ex_verifies s ex_stranger) (grader_servers defaultConfig false) = [NotFound; Handled "/ephemeral/run/" "/ephemeral/run/new/"; Refused; Refused].
Proof. vm_compute. reflexivity. Qed.
Example ex_redirect : serve_mux runner_patterns false "run//7/../../input" = Redirect "/input/".
Proof. vm_compute. reflexivity. Qed.
Example ex_metrics : answer ex_verifies (metrics_server defaultConfig) (Request None false "/metrics" "") = Handled "/metrics" "/metrics" /\
  serve_mux ["/metrics"] false "/metrics/" = NotFound.
Proof. split; vm_compute; reflexivity. Qed.
Example ex_attempt : proper_name "7" /\ "7" <> "request" /\ Forall proper_name ["sums"; "da39a3ee5e6b4b0d3255bfef95601890afd80709"].
Proof.
  repeat (split || constructor); try discriminate; intros H; unfold contains in H; cbn in H; repeat (destruct H as [H|H]; [discriminate H|]); exact H.
Qed.

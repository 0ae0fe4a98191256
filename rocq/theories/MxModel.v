(* Which requests reach which handler: common/server.go:12-61 (RunServer),
   cmd/omegaup-grader/main.go:82-87 (peerName), 180-292 (the servers),
   cmd/omegaup-broadcaster/main.go:217-361, cmd/omegaup-runner/main.go and metrics.go (its
   only server), and the patterns under which handlers are registered.
   net/http (Go 1.13): ServeMux, and a TLS server with RequireAndVerifyClientCert, which
   completes a handshake only with a certificate that verifies against its pool.
   A handler is named by its pattern.  Certificates, and which verify against the
   certificate of a file, are parameters. *)
From Coq Require Import String Ascii List ZArith Bool.
From Verif Require Import GoStr InModel GtModel CfModel CfSpec.
Import ListNotations.
Local Open Scope string_scope.

(* ---- net/http ServeMux (server.go of Go 1.13) ---- *)
Definition slash_ended (p : string) : bool := match rev (list_ascii_of_string p) with c :: _ => Ascii.eqb c "/" | [] => false end.
(* cleanPath *)
Definition cleanPath (p : string) : string :=
  match p with
  | "" => "/"
  | String c _ =>
      let p := if Ascii.eqb c "/" then p else "/" ++ p in
      let np := Clean p in
      if slash_ended p && negb (np =? "/") then np ++ "/" else np
  end.
(* appendSorted: the patterns that end in a slash, longest first. *)
Fixpoint insert (p : string) (es : list string) : list string :=
  match es with [] => [p] | e :: es => if (String.length e <? String.length p)%nat then p :: e :: es else e :: insert p es end.
Definition sorted (ps : list string) : list string := fold_left (fun es p => if slash_ended p then insert p es else es) ps [].
Definition exact_ (ps : list string) (path : string) : bool := existsb (String.eqb path) ps.
(* match *)
Definition match_ (ps : list string) (path : string) : option string :=
  if exact_ ps path then Some path else find (fun e => String.prefix e path) (sorted ps).
(* shouldRedirect *)
Definition shouldRedirect (ps : list string) (path : string) : bool :=
  negb (exact_ ps path) && (0 <? String.length path)%nat && exact_ ps (path ++ "/") && negb (slash_ended path).
Inductive outcome := Refused | Redirect (to : string) | NotFound | Handled (pattern path : string).
Definition handler (ps : list string) (path : string) : outcome := match match_ ps path with Some h => Handled h path | None => NotFound end.
(* Handler *)
Definition serve_mux (ps : list string) (connect : bool) (path : string) : outcome :=
  if connect then (if shouldRedirect ps path then Redirect (path ++ "/") else handler ps path)
  else
    let clean := cleanPath path in
    if shouldRedirect ps clean then Redirect (clean ++ "/")
    else if negb (clean =? path) then Redirect clean
    else handler ps path.

Section Servers.
Context {cert : Type}.
Variable verifies : string -> cert -> bool.   (* against the pool of a certificate file *)
Variable common_name : cert -> string.

(* clients: None for plain HTTP. *)
Record server := Server { port : Z; clients : option string; mux : list string }.
(* RunServer, server.go:14-61. *)
Definition RunServer (cert_file : string) (mux : list string) (port : Z) (insecure : bool) : server :=
  Server port (if insecure then None else Some cert_file) mux.

Record request := Request { r_cert : option cert; r_connect : bool; r_path : string; r_addr : string }.
(* r.TLS.PeerCertificates, if there is r.TLS. *)
Definition tls_state (s : server) (r : request) : option (list cert) :=
  match clients s with None => None | Some _ => Some (match r_cert r with Some c => [c] | None => [] end) end.
Definition answer (s : server) (r : request) : outcome :=
  match clients s with
  | None => serve_mux (mux s) (r_connect r) (r_path r)
  | Some file => match r_cert r with Some c => if verifies file c then serve_mux (mux s) (r_connect r) (r_path r) else Refused | None => Refused end
  end.
(* peerName, main.go:82-87; None: the handler panics. *)
Definition peerName (insecure : bool) (s : server) (r : request) : option string :=
  if insecure then Some (r_addr r)
  else match tls_state s r with Some (c :: _) => Some (common_name c) | _ => None end.

(* Settings.  (The defaults stand for settings that are not there, which C82_typed excludes.) *)
Definition num (c : val) (p : list string) : Z := match value_at c p with Some (CInt z) => z | _ => 0 end.
Definition flag (c : val) (p : list string) : bool := match value_at c p with Some (CBool b) => b | _ => false end.
Definition text (c : val) (p : list string) : string := match value_at c p with Some (CStr s) => s | _ => "" end.

(* net/http/pprof and expvar register on the DefaultServeMux when they are imported. *)
Definition debug_patterns : list string :=
  ["/debug/pprof/"; "/debug/pprof/cmdline"; "/debug/pprof/profile"; "/debug/pprof/symbol"; "/debug/pprof/trace"; "/debug/vars"].
(* ephemeral.go:302, ci.go:1016 *)
Definition web_patterns : list string := ["/ephemeral/run/"; "/ci/"].
(* runner_handler.go:155,173,197,227 *)
Definition runner_patterns : list string := ["/monitoring/benchmark/"; "/run/request/"; "/run/"; "/input/"].
(* frontend_handler.go:509-785 *)
Definition frontend_patterns : list string :=
  ["/metrics"; "/grader/status/"; "/run/new/"; "/run/grade/"; "/submission/source/"; "/run/resource/"; "/broadcast/"; "/reload-config/"].
(* metrics.go:195-204 of the grader, metrics.go:136-145 of the runner, main.go:224-232 of the
   broadcaster *)
Definition metrics_server (c : val) : server := Server (num c ["Metrics"; "Port"]) None ["/metrics"].

(* main.go:229-283 *)
Definition web_server (c : val) : server :=
  RunServer (text c ["Grader"; "Ephemeral"; "TLS"; "CertFile"]) web_patterns (num c ["Grader"; "Ephemeral"; "Port"]) (flag c ["Grader"; "Ephemeral"; "Proxied"]).
Definition runner_server (c : val) (insecure : bool) : server :=
  RunServer (text c ["TLS"; "CertFile"]) runner_patterns (num c ["Grader"; "Port"]) insecure.
Definition frontend_server (c : val) (insecure : bool) : server :=
  RunServer (text c ["TLS"; "CertFile"]) (debug_patterns ++ frontend_patterns) (num c ["Grader"; "V1"; "Port"]) insecure.
Definition grader_servers (c : val) (insecure : bool) : list server :=
  [metrics_server c; web_server c; runner_server c insecure; frontend_server c insecure].
(* broadcaster main.go:275-361; a nil handler is the DefaultServeMux. *)
Definition events_server (c : val) : server :=
  RunServer (text c ["Broadcaster"; "TLS"; "CertFile"]) ["/"] (num c ["Broadcaster"; "EventsPort"]) (flag c ["Broadcaster"; "Proxied"]).
Definition broadcast_server (c : val) (insecure : bool) : server :=
  RunServer (text c ["Broadcaster"; "TLS"; "CertFile"]) (debug_patterns ++ ["/deauthenticate/"; "/broadcast/"]) (num c ["Broadcaster"; "Port"]) insecure.
Definition broadcaster_servers (c : val) (insecure : bool) : list server := [metrics_server c; events_server c; broadcast_server c insecure].
Definition runner_servers (c : val) : list server := [metrics_server c].
End Servers.

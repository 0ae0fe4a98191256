(* Model of the configuration: common/context.go:14-127 (the types), 129-206
   (the defaults), 208-214 (String), 225-241 (DefaultConfig, NewConfig).

   The types are given as a schema, and encoding/json works on any schema.  As in
   TrcModel, a JSON text is the value it stands for; base.Duration and base.Byte
   (go-base) are what they are written as and read from (show_dur, read_dur,
   show_byte, read_byte), read after an old value because their UnmarshalJSON is
   also called for null. *)
From Coq Require Import String List ZArith Bool.
From Verif Require Import TrcModel RrModel.
Import ListNotations.
Local Open Scope string_scope.
Local Open Scope Z_scope.
Local Infix "=s?" := String.eqb (at level 70).

(* A type: bool, an integer type with its range, string, base.Duration, base.Byte, a
   struct. *)
Inductive ty := TBool | TInt (lo hi : Z) | TStr | TDur | TByte | TStruct (fields : list (string * ty)).
Inductive val := CBool (b : bool) | CInt (z : Z) | CStr (s : string) | CDur (ns : Z) | CByte (n : Z) | CStruct (fields : list (string * val)).
Definition int_ : ty := TInt (- 2 ^ 63) (2 ^ 63 - 1).
Definition uint16_ : ty := TInt 0 65535.

Definition TLSConfig : ty := TStruct [("CertFile", TStr); ("KeyFile", TStr)].                              (* 79-82 *)
Definition BroadcasterConfig : ty := TStruct [                                                              (* context.go:15-26 *)
  ("ChannelLength", int_); ("EventsPort", uint16_); ("FrontendURL", TStr); ("PingPeriod", TDur); ("Port", uint16_); ("Proxied", TBool);
  ("ScoreboardUpdateSecret", TStr); ("ScoreboardUpdateTimeout", TDur); ("TLS", TLSConfig); ("WriteDeadline", TDur)].
Definition InputManagerConfig : ty := TStruct [("CacheSize", TByte)].                                       (* 29-31 *)
Definition V1Config : ty := TStruct [                                                                       (* 35-42 *)
  ("Enabled", TBool); ("Port", uint16_); ("RuntimeGradePath", TStr); ("RuntimePath", TStr); ("SendBroadcast", TBool); ("UpdateDatabase", TBool)].
Definition GraderEphemeralConfig : ty := TStruct [                                                          (* 45-55 *)
  ("EphemeralSizeLimit", TByte); ("CaseTimeLimit", TDur); ("OverallWallTimeLimit", TDur); ("MemoryLimit", TByte); ("PingPeriod", TDur);
  ("Port", uint16_); ("Proxied", TBool); ("TLS", TLSConfig); ("WriteDeadline", TDur)].
Definition GraderCIConfig : ty := TStruct [("CISizeLimit", TByte)].                                         (* 58-60 *)
Definition GraderConfig : ty := TStruct [                                                                   (* 63-73 *)
  ("ChannelLength", int_); ("Port", uint16_); ("RuntimePath", TStr); ("MaxGradeRetries", int_); ("BroadcasterURL", TStr); ("V1", V1Config);
  ("Ephemeral", GraderEphemeralConfig); ("CI", GraderCIConfig); ("WriteGradeFiles", TBool)].
Definition RunnerConfig : ty := TStruct [                                                                   (* 85-91 *)
  ("GraderURL", TStr); ("RuntimePath", TStr); ("CompileTimeLimit", TDur); ("CompileOutputLimit", TByte); ("PreserveFiles", TBool)].
Definition DbConfig : ty := TStruct [("Driver", TStr); ("DataSourceName", TStr)].                           (* 94-97 *)
Definition TracingConfig : ty := TStruct [("Enabled", TBool); ("File", TStr)].                              (* 100-103 *)
Definition LoggingConfig : ty := TStruct [("File", TStr); ("Level", TStr)].                                 (* 106-109 *)
Definition MetricsConfig : ty := TStruct [("Port", uint16_)].                                               (* 112-114 *)
Definition Config : ty := TStruct [                                                                         (* 117-127 *)
  ("Broadcaster", BroadcasterConfig); ("InputManager", InputManagerConfig); ("Grader", GraderConfig); ("Db", DbConfig); ("Logging", LoggingConfig);
  ("Metrics", MetricsConfig); ("Tracing", TracingConfig); ("Runner", RunnerConfig); ("TLS", TLSConfig)].

(* context.go:129-206 *)
Definition seconds (n : Z) : val := CDur (n * 10 ^ 9).
Definition Mebibyte : Z := 2 ^ 20.
Definition Gibibyte : Z := 2 ^ 30.
Definition tls (cert key : string) : val := CStruct [("CertFile", CStr cert); ("KeyFile", CStr key)].
Definition defaultConfig : val := CStruct [
  ("Broadcaster", CStruct [
    ("ChannelLength", CInt 10); ("EventsPort", CInt 22291); ("FrontendURL", CStr "https://omegaup.com"); ("PingPeriod", seconds 30); ("Port", CInt 32672);
    ("Proxied", CBool true); ("ScoreboardUpdateSecret", CStr "secret"); ("ScoreboardUpdateTimeout", seconds 10);
    ("TLS", tls "/etc/omegaup/broadcaster/certificate.pem" "/etc/omegaup/broadcaster/key.pem"); ("WriteDeadline", seconds 5)]);
  ("InputManager", CStruct [("CacheSize", CByte Gibibyte)]);
  ("Grader", CStruct [
    ("ChannelLength", CInt 1024); ("Port", CInt 11302); ("RuntimePath", CStr "/var/lib/omegaup/"); ("MaxGradeRetries", CInt 3);
    ("BroadcasterURL", CStr "https://omegaup.com:32672/broadcast/");
    ("V1", CStruct [
      ("Enabled", CBool false); ("Port", CInt 21680); ("RuntimeGradePath", CStr "/var/lib/omegaup/grade"); ("RuntimePath", CStr "/var/lib/omegaup/");
      ("SendBroadcast", CBool true); ("UpdateDatabase", CBool true)]);
    ("Ephemeral", CStruct [
      ("EphemeralSizeLimit", CByte Gibibyte); ("CaseTimeLimit", seconds 10); ("OverallWallTimeLimit", seconds 10); ("MemoryLimit", CByte Gibibyte);
      ("PingPeriod", seconds 30); ("Port", CInt 36663); ("Proxied", CBool true);
      ("TLS", tls "/etc/omegaup/grader/web-certificate.pem" "/etc/omegaup/grader/web-key.pem"); ("WriteDeadline", seconds 5)]);
    ("CI", CStruct [("CISizeLimit", CByte (256 * Mebibyte))]); ("WriteGradeFiles", CBool true)]);
  ("Db", CStruct [("Driver", CStr "sqlite3"); ("DataSourceName", CStr "./omegaup.db")]);
  ("Logging", CStruct [("File", CStr "/var/log/omegaup/service.log"); ("Level", CStr "info")]);
  ("Metrics", CStruct [("Port", CInt 6060)]);
  ("Tracing", CStruct [("Enabled", CBool true); ("File", CStr "/var/log/omegaup/tracing.json")]);
  ("Runner", CStruct [
    ("GraderURL", CStr "https://omegaup.com:11302"); ("RuntimePath", CStr "/var/lib/omegaup/runner"); ("CompileTimeLimit", seconds 30);
    ("CompileOutputLimit", CByte (10 * Mebibyte)); ("PreserveFiles", CBool false)]);
  ("TLS", tls "/etc/omegaup/grader/certificate.pem" "/etc/omegaup/grader/key.pem")].

Section Json.
Variable show_dur : Z -> json.
Variable read_dur : Z -> json -> option Z.
Variable show_byte : Z -> json.
Variable read_byte : Z -> json -> option Z.
Variable equal_fold : string -> string -> bool.

Fixpoint find_field {A} (l : list (string * A)) (f : string) : option A :=
  match l with [] => None | (g, a) :: l => if g =s? f then Some a else find_field l f end.
Fixpoint set_field (l : list (string * val)) (f : string) (v : val) : list (string * val) :=
  match l with [] => [] | (g, a) :: l => if g =s? f then (g, v) :: l else (g, a) :: set_field l f v end.

(* json.Decoder.Decode into a value that is not a struct: null leaves it as it is, a
   number must be an integer that fits. *)
Definition put (t : ty) (old : val) (j : json) : option val :=
  match t, old, j with
  | TDur, CDur z, _ => option_map CDur (read_dur z j)
  | TByte, CByte z, _ => option_map CByte (read_byte z j)
  | _, _, JNull => Some old
  | TBool, _, JBool b => Some (CBool b)
  | TInt lo hi, _, JInt z => if (lo <=? z) && (z <=? hi) then Some (CInt z) else None
  | TStr, _, JStr s => Some (CStr s)
  | _, _, _ => None
  end.
(* Into anything: the members of an object are decoded in order, each into the field
   its name is for (RrModel.field_of), unknown names are skipped.  (An error does not
   stop the decoder at once, but the value is not used: context.go:236-238.) *)
Fixpoint decode (t : ty) (old : val) (j : json) {struct j} : option val :=
  match t, old with
  | TStruct fs, CStruct vs =>
      match j with
      | JNull => Some old
      | JObj l =>
          (fix members (vs : list (string * val)) (l : list (string * json)) : option val :=
             match l with
             | [] => Some (CStruct vs)
             | (k, j') :: l' =>
                 match RrModel.field_of equal_fold (map fst fs) k with
                 | None => members vs l'
                 | Some f =>
                     match find_field fs f, find_field vs f with
                     | Some t', Some v' => match decode t' v' j' with Some w => members (set_field vs f w) l' | None => None end
                     | _, _ => None
                     end
                 end
             end) vs l
      | _ => None
      end
  | _, _ => put t old j
  end.

(* NewConfig, context.go:231-241: the text is read into a copy of the defaults.
   reader None: the text is not JSON, or cannot be read. *)
Definition NewConfig (reader : option json) : option val :=
  match reader with Some j => decode Config defaultConfig j | None => None end.

(* json.Marshal, and String, context.go:208-214. *)
Fixpoint encode (v : val) : json :=
  match v with
  | CBool b => JBool b
  | CInt z => JInt z
  | CStr s => JStr (clean s)
  | CDur z => show_dur z
  | CByte z => show_byte z
  | CStruct vs => JObj ((fix fields (vs : list (string * val)) := match vs with [] => [] | (f, v) :: vs => (f, encode v) :: fields vs end) vs)
  end.
End Json.

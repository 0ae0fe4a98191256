(* Specification of the requests for ephemeral runs (C62, C63). *)
From Coq Require Import String Ascii List Bool ZArith QArith.
From Verif Require Import GoStr InModel LitModel LitSpec FeSpec EhModel.
Import ListNotations.
Local Open Scope string_scope.

(* The files that can be asked for. *)
Definition public_files : list string := ["details.json"; "files.zip"; "logs.txt"; "request.json"; "tracing.json"].

(* The parts of an answer that are files: of the files [names], in order, some are
   left out, and some are cut off. *)
Inductive files_sent (d : string -> option string) : list string -> list seen -> Prop :=
| sent_none : files_sent d [] []
| sent_left_out : forall n ns l, files_sent d ns l -> files_sent d (n :: ns) l
| sent_file : forall n ns l c a b, files_sent d ns l -> d n = Some c -> c = a ++ b -> files_sent d (n :: ns) (FilePart n a :: l).
(* All that exist, completely. *)
Fixpoint all_files (d : string -> option string) (names : list string) : list seen :=
  match names with [] => [] | n :: ns => match d n with Some c => FilePart n c :: all_files d ns | None => all_files d ns end end.
Definition names : list string := ["logs.txt.gz"; "files.zip"; "details.json"].

(* A complete answer to a request for a run whose input was accepted, with the files
   of its directory d. *)
Inductive answer (token : string) (d : string -> option string) (reads_work : bool) (out : list seen) : Prop :=
| answer_run : forall running files, (running = [] \/ running = [Field "running"]) -> files_sent d names files -> (reads_work = true -> files = all_files d names) ->
    out = (Status 200 (Some token) :: Field "waiting" :: Field "queueing" :: running ++ files)%list -> answer token d reads_work out.

(* Model of parseMetaFile and isJavaMLE, runner/sandbox.go:401-514, and of the
   limits passed to the sandbox by Run, runner/sandbox.go:258-261 and :302-315.

   Files are strings of bytes.  bufio.Scanner with ScanLines is modelled by its
   contract: the lines of the file without "\n" or "\r\n", stopping with an error
   at a line of 65536 bytes or more.  strconv.ParseFloat (divided by 1e6) is a
   parameter, it only affects the times.  Logging is left out. *)
From Coq Require Import String Ascii List Arith NArith ZArith Bool.
From Flocq Require Import IEEE754.BinarySingleNaN.
From Verif Require Import NumModel GradeModel.
Import ListNotations.
Local Open Scope Z_scope.
Local Open Scope string_scope.

Definition LF : ascii := "010"%char.
Definition CR : ascii := "013"%char.
(* The lines of a file, without the newline. *)
Fixpoint raw_lines (s : string) : list string :=
  match s with
  | "" => []
  | String c s' =>
    if Ascii.eqb c LF then "" :: raw_lines s'
    else match raw_lines s' with
         | l :: ls => match s' with "" => [String c ""] | _ => String c l :: ls end
         | [] => [String c ""]
         end
  end.
(* dropCR of bufio. *)
Fixpoint drop_cr (s : string) : string :=
  match s with
  | "" => ""
  | String c "" => if Ascii.eqb c CR then "" else s
  | String c s' => String c (drop_cr s')
  end.
Definition MaxScanTokenSize : N := 65536%N.
Definition slen (s : string) : N := N.of_nat (String.length s).

(* strings.SplitN(line, ":", 2): None when there is no colon. *)
Fixpoint split_colon (s : string) : option (string * string) :=
  match s with
  | "" => None
  | String c s' =>
    if Ascii.eqb c ":" then Some ("", s')
    else match split_colon s' with Some (k, v) => Some (String c k, v) | None => None end
  end.

(* strconv.Atoi and strconv.ParseInt(s, 10, 64), ignoring the error: 0 for a
   syntax error, the nearest int64 when out of range. *)
Definition digit (c : ascii) : option Z :=
  let n := Z.of_N (N_of_ascii c) - 48 in if ((0 <=? n) && (n <=? 9))%Z%bool then Some n else None.
Fixpoint digits (s : string) (acc : Z) : option Z :=
  match s with
  | "" => Some acc
  | String c s' => match digit c with Some d => digits s' (10 * acc + d) | None => None end
  end.
Definition clamp64 (z : Z) : Z := Z.max (- 2 ^ 63) (Z.min (2 ^ 63 - 1) z).
Definition parse_int (s : string) : Z :=
  match s with
  | "" => 0
  | String c s' =>
    if Ascii.eqb c "-" then match s' with "" => 0 | _ => match digits s' 0 with Some z => clamp64 (- z) | None => 0 end end
    else if Ascii.eqb c "+" then match s' with "" => 0 | _ => match digits s' 0 with Some z => clamp64 z | None => 0 end end
    else match digits s 0 with Some z => clamp64 z | None => 0 end
  end.

(* RunMetadata with all the fields parseMetaFile fills. *)
Record metadata : Type := mkMD {
  d_verdict : verdict; d_exit : Z; d_time : float64; d_sys : float64; d_wall : float64; d_mem : Z;
  d_signal : option string; d_syscall : option string
}.
(* lines 409-412 *)
Definition md0 : metadata := mkMD JE (-1) fzero fzero fzero 0 None None.

Section Parse.
Variable pf : string -> float64.       (* ParseFloat(s, 64) / 1e6 *)

(* The switch of lines 419-444. *)
Definition set_field (m : metadata) (k v : string) : metadata :=
  let '(mkMD ve ex ti sy wa me sg sc) := m in
  if k =? "status" then mkMD ve (parse_int v) ti sy wa me sg sc
  else if k =? "time" then mkMD ve ex (pf v) sy wa me sg sc
  else if k =? "time-sys" then mkMD ve ex ti (pf v) wa me sg sc
  else if k =? "time-wall" then mkMD ve ex ti sy (pf v) me sg sc
  else if k =? "mem" then mkMD ve ex ti sy wa (parse_int v) sg sc
  else if k =? "signal" then mkMD ve ex ti sy wa me (Some v) sc
  else if k =? "signal_number" then mkMD ve ex ti sy wa me (Some ("SIGNAL " ++ v)) sc
  else if k =? "syscall" then mkMD ve ex ti sy wa me sg (Some v)
  else if k =? "syscall_number" then mkMD ve ex ti sy wa me sg (Some ("SYSCALL " ++ v))
  else m.
(* The loop of lines 413-449: the metadata and whether an error is returned. *)
Fixpoint scan_fields (m : metadata) (ls : list string) : metadata * bool :=
  match ls with
  | [] => (m, false)
  | l :: ls' =>
    if (MaxScanTokenSize <=? slen l)%N then (m, true)
    else match split_colon (drop_cr l) with
         | None => (m, true)
         | Some (k, v) => scan_fields (set_field m k v) ls'
         end
  end.
End Parse.

(* lines 451-472 *)
Definition signal_verdict (s : string) : verdict :=
  if s =? "SIGSYS" then RFE
  else if (s =? "SIGILL") || (s =? "SIGABRT") || (s =? "SIGFPE") || (s =? "SIGKILL") || (s =? "SIGPIPE")
          || (s =? "SIGBUS") || (s =? "SIGSEGV") then RTE
  else if (s =? "SIGALRM") || (s =? "SIGXCPU") then TLE
  else if s =? "SIGXFSZ" then OLE
  else RTE.
(* lines 451-490; [limit] is limits.MemoryLimit (None: limits == nil), [oom] is
   the answer of isJavaMLE. *)
Definition judge (limit : option Z) (lang : string) (oom allow : bool) (m : metadata) : metadata :=
  let v1 := match d_signal m with
            | Some s => signal_verdict s
            | None => if (d_exit m =? 0)%Z || allow then OK else RTE
            end in
  let v2 := if ((lang =? "kj") || (lang =? "kp")) && (d_exit m =? 1)%Z then TLE else v1 in
  match limit with
  | Some lim =>
    if ((0 <? lim)%Z && ((lim <? d_mem m)%Z || (lang =? "java") && negb (d_exit m =? 0)%Z && oom))
    then mkMD MLE (d_exit m) (d_time m) (d_sys m) (d_wall m) lim (d_signal m) (d_syscall m)
    else mkMD v2 (d_exit m) (d_time m) (d_sys m) (d_wall m) (d_mem m) (d_signal m) (d_syscall m)
  | None => mkMD v2 (d_exit m) (d_time m) (d_sys m) (d_wall m) (d_mem m) (d_signal m) (d_syscall m)
  end.
Definition parseMetaFile (pf : string -> float64) (limit : option Z) (lang : string) (content : string) (oom allow : bool)
  : metadata * bool :=
  let (m, err) := scan_fields pf md0 (raw_lines content) in
  if err then (m, true) else (judge limit lang oom allow m, false).

(* OmegajailSandbox.Run after the sandbox finished, lines 339-348 (the meta file
   None when it cannot be opened; [oom]: what isJavaMLE finds), and what goes
   wrong earlier, lines 291-300. *)
Inductive run_outcome : Type := CopyFailed | NoMetaFile | MetaFile (content : string).
Definition Run (pf : string -> float64) (limit : Z) (lang : string) (out : run_outcome) (oom : bool) : metadata * bool :=
  match out with
  | CopyFailed | NoMetaFile => (md0, true)
  | MetaFile c => parseMetaFile pf (Some limit) lang c oom (lang =? "c")
  end.
(* OmegajailSandbox.Compile, lines 181-243; [class_exists] is the os.Stat of line
   227, [can_write] the opening of the error file. *)
Inductive compile_outcome : Type := OutsideChroot | CNoMetaFile | CMetaFile (content : string).
Definition Compile (pf : string -> float64) (lang : string) (out : compile_outcome) (class_exists can_write : bool) : metadata * bool :=
  match out with
  | OutsideChroot | CNoMetaFile => (md0, true)
  | CMetaFile c =>
    let (m, err) := parseMetaFile pf None lang c false false in
    if (lang =? "java") && veqb (d_verdict m) OK && negb class_exists
    then (mkMD CE (d_exit m) (d_time m) (d_sys m) (d_wall m) (d_mem m) (d_signal m) (d_syscall m), err || negb can_write)
    else (m, err)
  end.

(* isJavaMLE on an error file that can be opened, lines 492-513: ReadLine with a
   buffer of [size] bytes.  [fuel] is the number of bytes left. *)
Fixpoint is_prefix (p s : string) : bool :=
  match p, s with
  | "", _ => true
  | String a p', String b s' => Ascii.eqb a b && is_prefix p' s'
  | _, "" => false
  end.
Fixpoint contains (p s : string) : bool :=
  is_prefix p s || match s with "" => false | String _ s' => contains p s' end.
Fixpoint take (n : nat) (s : string) : string :=
  match n, s with O, _ => "" | _, "" => "" | S n', String c s' => String c (take n' s') end.
Fixpoint drop (n : nat) (s : string) : string :=
  match n, s with O, _ => s | _, "" => "" | S n', String _ s' => drop n' s' end.
Fixpoint index_lf (s : string) (i : nat) : option nat :=
  match s with "" => None | String c s' => if Ascii.eqb c LF then Some i else index_lf s' (S i) end.
Fixpoint ends_cr (s : string) : bool :=
  match s with "" => false | String c "" => Ascii.eqb c CR | String _ s' => ends_cr s' end.
(* bufio.Reader.ReadLine: the line and the rest. *)
Definition ReadLine (size : nat) (s : string) : option (string * string) :=
  match s with
  | "" => None
  | _ =>
    match index_lf (take size s) 0 with
    | Some i => Some (drop_cr (take i s), drop (S i) s)
    | None =>
      if (size <=? String.length s)%nat then
        let n := if ends_cr (take size s) then (size - 1)%nat else size in
        Some (take n s, drop n s)
      else Some (s, "")
    end
  end.
Fixpoint java_mle (size : nat) (fuel : nat) (s : string) : bool :=
  match fuel with
  | O => false
  | S f =>
    match ReadLine size s with
    | None => false
    | Some (l, s') => contains "java.lang.OutOfMemoryError" l || java_mle size f s'
    end
  end.
Definition isJavaMLE (errfile : option string) : bool :=
  match errfile with None => false | Some s => java_mle 4096 (S (String.length s)) s end.

(* What Run asks of the sandbox: -m in bytes, -t in milliseconds (limits are in
   bytes and nanoseconds), lines 258-261 and 302-313. *)
Definition MiB : Z := 1048576.
Definition hard_memory (memory_limit : Z) : Z := Z.min (640 * MiB) memory_limit.
Definition time_ms (lang : string) (time_limit_ns : Z) : Z :=
  Z.quot (if lang =? "java" then time_limit_ns + 1000 else time_limit_ns) 1000000.

(* Model of runner/runner.go:262-265 and 295-374 (parseOutputOnlyFile) and of its
   use for one case, runner/runner.go:814-878.

   The decoding of the data URL and of the ZIP directory (libraries dataurl and
   archive/zip) is an input: [None] when the text is no data URL, [Some None]
   when the data is no ZIP archive, otherwise the entries of the archive in the
   order of its directory.  Of archive/zip's reader only its length check is
   modelled: reading an entry fails unless as many bytes come out as the header
   announces. *)
From Coq Require Import String Ascii List NArith ZArith Bool.
From Verif Require Import GradeModel.
Import ListNotations.
Local Open Scope string_scope.

Record zentry := mkZ {
  z_name : string;              (* FileHeader.Name *)
  z_declared : N;               (* FileHeader.UncompressedSize64 *)
  z_data : option string        (* what decompressing gives; None: an error, or a wrong checksum *)
}.
(* runner/runner.go:262-265 *)
Record outfile := mkO { o_contents : string; o_ole : bool }.

Definition slen (s : string) : N := N.of_nat (String.length s).
(* f.Open() and io.Copy, runner/runner.go:351-369, with archive/zip's
   checksumReader.Read: ErrUnexpectedEOF when the length is not the one declared. *)
Definition zread (e : zentry) : option string :=
  match z_data e with
  | Some s => if (slen s =? z_declared e)%N then Some s else None
  | None => None
  end.

(* fileName[idx+1:] for idx the last '/', runner/runner.go:333-335. *)
Fixpoint after_slash (s acc : string) : string :=
  match s with
  | EmptyString => acc
  | String c s' => if Ascii.eqb c "/" then after_slash s' s' else after_slash s' acc
  end.
Definition base_name (s : string) : string := after_slash s s.
(* strings.HasSuffix(s, ".out"): len(s) >= 4 and the last four bytes agree. *)
Definition has_suffix (suf s : string) : bool :=
  (String.length suf <=? String.length s)%nat && (substring (String.length s - String.length suf) (String.length suf) s =? suf).
(* uint64(settings.Limits.OutputLimit), int64 to uint64. *)
Definition to_uint64 (z : Z) : N := Z.to_N (z mod 2 ^ 64).

(* A Go map as an association list: assignment replaces. *)
Definition gomap := list (string * outfile).
Fixpoint lookup (k : string) (m : gomap) : option outfile :=
  match m with
  | [] => None
  | (k', v) :: m' => if k =? k' then Some v else lookup k m'
  end.
Definition assign (k : string) (v : outfile) (m : gomap) : gomap :=
  (k, v) :: filter (fun kv => negb (k =? fst kv)) m.

(* runner/runner.go:315-320 *)
Definition expected_names (cases : list string) : list string := map (fun n => n ++ ".out") cases.

(* The loop body, runner/runner.go:322-371. *)
Definition entry_step (expected : list string) (limit : Z) (m : gomap) (e : zentry) : gomap :=
  if negb (has_suffix ".out" (z_name e)) then m
  else
    let fileName := base_name (z_name e) in
    if negb (existsb (String.eqb fileName) expected) then m
    else if (to_uint64 limit <? z_declared e)%N then assign fileName (mkO "" true) m
    else match zread e with
         | None => m
         | Some s => assign fileName (mkO s false) m
         end.

(* parseOutputOnlyFile, runner/runner.go:295-374: the map and whether an error is
   returned.  [cases] are the names of the cases of all groups. *)
Definition parseOutputOnlyFile (decoded : option (option (list zentry))) (data : string) (cases : list string) (limit : Z)
  : gomap * bool :=
  match decoded with
  | None => ([("Main.out", mkO data false)], false)
  | Some None => ([], true)
  | Some (Some files) => (fold_left (entry_step (expected_names cases) limit) files [], false)
  end.

(* One case of an output-only run, runner/runner.go:814-878: the verdict, the
   contents written to <case>.out and to <case>.meta (writes assumed to work; on
   failure the code only logs). *)
Definition cat_case (m : gomap) (case : string) : verdict * string * string :=
  match lookup (case ++ ".out") m with
  | Some f => (if o_ole f then OLE else OK, o_contents f, "status:0")
  | None => (RTE, "", "status:1")
  end.

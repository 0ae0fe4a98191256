(* Model of the validator command, cmd/validator/main.go, with flag.Parse of Go's
   standard library (package flag: parseOne) for its two flags and fmt's "%.2f".

   Simplifications: a tolerance is a value of any type, with [parse_tolerance] for
   strconv.ParseFloat(s, 64); the command line and paths are byte strings; a file is
   what reading it gives, or cannot be opened; the log on standard error is not
   modelled.  "-h" ends with status 0 or 2, depending on the release of Go
   ([help_status]).  The score is CalculateScore of ValModel.v. *)
From Coq Require Import List String Ascii ZArith NArith Bool QArith Qround.
From Verif Require Import TokModel ValModel.
Import ListNotations.
Local Open Scope string_scope.

(* big.Rat's Float64, for a number between 0 and 1: the nearest m * 2^e with m below
   2^53, ties to even. *)
Definition half_even (q : Q) : Z :=
  let f := Qfloor q in
  match Qcompare (q - inject_Z f) (1 # 2) with
  | Lt => f
  | Gt => f + 1
  | Eq => if Z.even f then f else f + 1
  end%Z.
Definition two_to (e : Z) : Q := Qpower 2 e.
Definition exponent (q : Q) : Z :=
  let k := (Z.log2 (Qnum q) - Z.log2 (Zpos (Qden q)))%Z in
  Z.max ((if Qle_bool (two_to k) q then k else k - 1) - 52) (-1074).
Definition Float64 (q : Q) : Q :=
  if Qle_bool q 0 then 0 else (inject_Z (half_even (q * two_to (- exponent q))) * two_to (exponent q))%Q.

(* fmt.Printf("%.2f\n", v), main.go:64, for v between 0 and 1: the exact value rounded
   to two decimals, ties to even. *)
Definition dig (z : Z) : string := String (ascii_of_N (48 + Z.to_N z)) "".
Definition LF : string := String (ascii_of_N 10) "".
Definition printed (v : Q) : string :=
  let h := half_even (v * 100) in
  dig (h / 100) ++ "." ++ dig (h / 10 mod 10) ++ dig (h mod 10) ++ LF.

(* ---- flag.Parse ---- *)
(* name=value *)
Fixpoint cut_eq (s : string) : string * option string :=
  match s with
  | "" => ("", None)
  | String c s => if Ascii.eqb c "=" then ("", Some s)
                  else let '(n, v) := cut_eq s in (String c n, v)
  end.
(* What an argument is for parseOne: not a flag, the end of the flags, badly written,
   or a name and perhaps a value.  The "=" is looked for from the second character. *)
Inductive arg := Plain | End_ | Bad | Flag (name : string) (value : option string).
Definition named (s : string) : arg :=
  match s with
  | "" => Bad
  | String c t => if Ascii.eqb c "-" || Ascii.eqb c "=" then Bad
                  else let '(n, v) := cut_eq t in Flag (String c n) v
  end.
Definition arg_of (s : string) : arg :=
  match s with
  | String a (String b t) =>
    if Ascii.eqb a "-"
    then if Ascii.eqb b "-" then (if String.eqb t "" then End_ else named t) else named (String b t)
    else Plain
  | _ => Plain
  end.

Section Command.
Variable T : Type.
Variable default_tolerance : T.
Variable parse_tolerance : string -> option T.
Variable num_eq : T -> bytes -> bytes -> bool.
Variable fold_eq : bytes -> bytes -> bool.
Variable parse : bytes -> option Q.
Variable maxTok : N.
Variable help_status : Z.

(* main.go:12-15 *)
Record settings := { validator : string; tolerance : T }.
Definition defaults : settings := {| validator := ""; tolerance := default_tolerance |}.

(* FlagSet.Parse: the settings and the rest of the arguments, or a status (flag.ExitOnError). *)
Definition set_flag (st : settings) (name value : string) : option settings :=
  if String.eqb name "validator" then Some {| validator := value; tolerance := tolerance st |}
  else match parse_tolerance value with
       | Some t => Some {| validator := validator st; tolerance := t |}
       | None => None
       end.
Fixpoint flag_parse (st : settings) (l : list string) : (Z + settings * list string)%type :=
  match l with
  | [] => Datatypes.inr (st, [])
  | a :: l1 =>
    match arg_of a with
    | Plain => Datatypes.inr (st, l)
    | End_ => Datatypes.inr (st, l1)
    | Bad => inl 2%Z
    | Flag name value =>
      if String.eqb name "validator" || String.eqb name "tolerance"
      then match value, l1 with
           | Some v, _ => match set_flag st name v with Some st => flag_parse st l1 | None => inl 2%Z end
           | None, v :: l2 => match set_flag st name v with Some st => flag_parse st l2 | None => inl 2%Z end
           | None, [] => inl 2%Z
           end
      else if String.eqb name "help" || String.eqb name "h" then inl help_status else inl 2%Z
    end
  end.

Variable open : string -> option reader.

(* main, cmd/validator/main.go:17-65: the exit status and the standard output. *)
Definition main (args : list string) : Z * string :=
  match flag_parse defaults args with
  | inl status => (status, "")
  | Datatypes.inr (st, rest) =>
    match rest with
    | [a; b] =>
      if String.eqb (validator st) "" then (2%Z, "")
      else match open a with
           | None => (1%Z, "")
           | Some expected =>
             match open b with
             | None => (1%Z, "")
             | Some contestant =>
               let r := CalculateScore fold_eq (num_eq (tolerance st)) parse maxTok (validator st) expected contestant in
               match verr r with
               | Some _ => (1%Z, "")
               | None => (0%Z, printed (Float64 (score r)))
               end
             end
           end
    | _ => (2%Z, "")
    end
  end.
End Command.

(* Model of runner/tokenizer.go (all of it), of the part of the Go 1.13 standard
   library it runs on (bufio.Scanner.Scan, unicode/utf8.DecodeRune,
   unicode.IsSpace), and of the token comparison loop of
   runner/validator.go:14-99.

   Bytes and runes are N.  A reader (io.Reader) is a script: the byte chunks its
   successive Read calls make available (an empty chunk is a Read returning 0,
   nil), the error it finally reports, and whether that error is returned
   together with the last bytes or by a separate call. *)
From Coq Require Import List Arith NArith ZArith Bool QArith.
Import ListNotations.
Local Open Scope N_scope.

Notation bytes := (list N) (only parsing).

(* unicode/utf8.DecodeRune.  [first] is the table utf8.first with the accept
   range of the second byte. *)
Definition RuneError : N := 0xFFFD.
Inductive fclass : Type := FAscii | FInvalid | F2 (lo hi : N) | F3 (lo hi : N) | F4 (lo hi : N).
Definition first (b : N) : fclass :=
  if b <? 0x80 then FAscii
  else if b <? 0xC2 then FInvalid
  else if b <=? 0xDF then F2 0x80 0xBF
  else if b =? 0xE0 then F3 0xA0 0xBF
  else if b <=? 0xEC then F3 0x80 0xBF
  else if b =? 0xED then F3 0x80 0x9F
  else if b <=? 0xEF then F3 0x80 0xBF
  else if b =? 0xF0 then F4 0x90 0xBF
  else if b <=? 0xF3 then F4 0x80 0xBF
  else if b =? 0xF4 then F4 0x80 0x8F
  else FInvalid.
Definition inr (lo hi b : N) : bool := (lo <=? b) && (b <=? hi).
Definition decode (p : bytes) : N * nat :=
  match p with
  | [] => (RuneError, 0%nat)
  | p0 :: t =>
    match first p0 with
    | FAscii => (p0, 1%nat)
    | FInvalid => (RuneError, 1%nat)
    | F2 lo hi =>
      match t with
      | b1 :: _ => if inr lo hi b1 then ((p0 - 0xC0) * 64 + (b1 - 0x80), 2%nat) else (RuneError, 1%nat)
      | _ => (RuneError, 1%nat)
      end
    | F3 lo hi =>
      match t with
      | b1 :: b2 :: _ =>
        if inr lo hi b1 && inr 0x80 0xBF b2
        then ((p0 - 0xE0) * 4096 + (b1 - 0x80) * 64 + (b2 - 0x80), 3%nat) else (RuneError, 1%nat)
      | _ => (RuneError, 1%nat)
      end
    | F4 lo hi =>
      match t with
      | b1 :: b2 :: b3 :: _ =>
        if inr lo hi b1 && inr 0x80 0xBF b2 && inr 0x80 0xBF b3
        then ((p0 - 0xF0) * 262144 + (b1 - 0x80) * 4096 + (b2 - 0x80) * 64 + (b3 - 0x80), 4%nat)
        else (RuneError, 1%nat)
      | _ => (RuneError, 1%nat)
      end
    end
  end.

(* unicode.IsSpace (Go 1.13 tables). *)
Definition IsSpace (r : N) : bool :=
  inr 0x09 0x0D r || (r =? 0x20) || (r =? 0x85) || (r =? 0xA0) || (r =? 0x1680) ||
  inr 0x2000 0x200A r || (r =? 0x2028) || (r =? 0x2029) || (r =? 0x202F) || (r =? 0x205F) || (r =? 0x3000).

(* runner/tokenizer.go:40-42 and :45-47. *)
Definition IsNonWhitespace (r : N) : bool := negb (IsSpace r) && negb (inr 0x1C 0x1F r).
Definition IsNumeric (r : N) : bool := (r =? 46) || (r =? 45) || inr 48 57 r.

(* Position bookkeeping of the tokenizer: the captured variables of splitFunc
   (runner/tokenizer.go:98-99) and t.line, t.column (:54). *)
Record tpos : Type := mkP {
  pline : Z; pcol : Z;             (* line, column *)
  lline : Z; lcol : Z;             (* lastLine, lastColumn *)
  tline : Z; tcol : Z              (* t.line, t.column *)
}.
Definition pos0 : tpos := mkP 1 1 (-1) (-1) (-1) (-1).

(* line++/column=1 or column++, runner/tokenizer.go:109-114, :123-128. *)
Definition bump (r : N) (lc : Z * Z) : Z * Z :=
  if r =? 10 then (fst lc + 1, 1)%Z else (fst lc, snd lc + 1)%Z.

(* First loop, runner/tokenizer.go:102-115.  Returns start, data[start:], line
   and column.  The number of iterations is at most len(data). *)
Fixpoint skip_loop (P : N -> bool) (fuel : nat) (start : nat) (d : bytes) (lc : Z * Z) : nat * bytes * (Z * Z) :=
  match fuel with
  | O => (start, d, lc)
  | S f =>
    match d with
    | [] => (start, d, lc)
    | _ => let (r, w) := decode d in
           if P r then (start, d, lc)
           else skip_loop P f (start + w)%nat (skipn w d) (bump r lc)
    end
  end.

(* Second loop, runner/tokenizer.go:120-134.  [i] is relative to start.
   Some (i, width) when a separator was found. *)
Fixpoint find_loop (P : N -> bool) (fuel : nat) (i : nat) (d : bytes) (lc : Z * Z) : option (nat * nat) * (Z * Z) :=
  match fuel with
  | O => (None, lc)
  | S f =>
    match d with
    | [] => (None, lc)
    | _ => let (r, w) := decode d in
           if P r then find_loop P f (i + w)%nat (skipn w d) (bump r lc)
           else (Some (i, w), bump r lc)
    end
  end.

(* splitFunc, runner/tokenizer.go:97-144: (advance, token, positions). *)
Definition split (P : N -> bool) (p : tpos) (data : bytes) (atEOF : bool) : nat * option bytes * tpos :=
  let '(start, d, lc1) := skip_loop P (length data) 0 data (pline p, pcol p) in
  let ll := if (lline p =? -1)%Z then lc1 else (lline p, lcol p) in
  let (found, lc2) := find_loop P (length d) 0 d lc1 in
  match found with
  | Some (i, w) => ((start + i + w)%nat, Some (firstn i d), mkP (fst lc2) (snd lc2) (-1) (-1) (fst ll) (snd ll))
  | None =>
    if atEOF && (start <? length data)%nat
    then (length data, Some d, mkP (fst lc2) (snd lc2) (-1) (-1) (fst ll) (snd ll))
    else (start, None, mkP (fst lc2) (snd lc2) (fst ll) (snd ll) (tline p) (tcol p))
  end.

(* Errors: io.EOF, a read error, bufio.ErrTooLong, io.ErrNoProgress. *)
Inductive rerr : Type := EEOF | EIO (n : N) | ETooLong | ENoProgress.

Record reader : Type := mkRd { chunks : list bytes; final : rerr; eager : bool }.

(* bufio.Scanner (the fields Scan uses): buffer length, start offset, the bytes
   buf[start:end], s.err, plus the tokenizer's positions. *)
Record scanner : Type := mkSc {
  slen : N; sstart : N; sdata : bytes; serr : option rerr; spos : tpos; srd : reader
}.

(* NewTokenizer, runner/tokenizer.go:58-68. *)
Definition new_scanner (rd : reader) : scanner := mkSc 0 0 [] None pos0 rd.

(* The read loop of Scan: Read(buf[end:len]) with room for k bytes, at most 100
   consecutive empty reads. *)
Fixpoint read_loop (loop : nat) (k : N) (cs : list bytes) (fin : rerr) (eag : bool) : bytes * option rerr * list bytes :=
  match cs with
  | [] => ([], Some fin, [])
  | c :: cs' =>
    match c with
    | [] =>
      match cs', eag with
      | [], true => ([], Some fin, [])
      | _, _ => if (100 <=? loop)%nat then ([], Some ENoProgress, cs') else read_loop (S loop) k cs' fin eag
      end
    | _ =>
      let got := firstn (N.to_nat k) c in
      let rest := skipn (N.to_nat k) c in
      match rest, cs', eag with
      | [], [], true => (got, Some fin, [])
      | [], _, _ => (got, None, cs')
      | _, _, _ => (got, None, rest :: cs')
      end
    end
  end.

Definition lenN (d : bytes) : N := N.of_nat (length d).

(* One iteration of the loop of bufio.Scanner.Scan.  [inl b]: Scan returns with
   token b; [inr false]: Scan returns false; [inr true]: next iteration. *)
Inductive outcome : Type := OTok (t : bytes) | OFalse | OLoop.

Definition startBufSize : N := 4096.

(* setErr *)
Definition set_err (e : option rerr) (n : rerr) : option rerr :=
  match e with None | Some EEOF => Some n | _ => e end.

Definition read_more (maxTok : N) (s : scanner) : scanner * outcome :=
  match serr s with
  | Some _ => (mkSc (slen s) 0 [] (serr s) (spos s) (srd s), OFalse)
  | None =>
    (* shift *)
    let start1 := if (0 <? sstart s) && ((sstart s + lenN (sdata s) =? slen s) || (slen s / 2 <? sstart s))
                  then 0 else sstart s in
    (* resize *)
    let full := start1 + lenN (sdata s) =? slen s in
    if full && (maxTok <=? slen s)
    then (mkSc (slen s) start1 (sdata s) (set_err (serr s) ETooLong) (spos s) (srd s), OFalse)
    else
      let len2 := if full then N.min maxTok (if slen s =? 0 then startBufSize else slen s * 2) else slen s in
      let start2 := if full then 0 else start1 in
      let '(got, e, cs) := read_loop 0 (len2 - start2 - lenN (sdata s)) (chunks (srd s)) (final (srd s)) (eager (srd s)) in
      (mkSc len2 start2 (sdata s ++ got) (match e with Some x => set_err (serr s) x | None => serr s end)
            (spos s) (mkRd cs (final (srd s)) (eager (srd s))), OLoop)
  end.

Definition isSome {A} (o : option A) : bool := match o with Some _ => true | None => false end.

Definition scan_iter (P : N -> bool) (maxTok : N) (s : scanner) : scanner * outcome :=
  if negb (match sdata s with [] => true | _ => false end) || isSome (serr s)
  then
    let '(adv, tok, p') := split P (spos s) (sdata s) (isSome (serr s)) in
    let s' := mkSc (slen s) (sstart s + N.of_nat adv) (skipn adv (sdata s)) (serr s) p' (srd s) in
    match tok with
    | Some t => (s', OTok t)
    | None => read_more maxTok s'
    end
  else read_more maxTok s.

Fixpoint scan_loop (P : N -> bool) (maxTok : N) (fuel : nat) (s : scanner) : scanner * option bytes :=
  match fuel with
  | O => (s, None)
  | S f =>
    match scan_iter P maxTok s with
    | (s', OTok t) => (s', Some t)
    | (s', OFalse) => (s', None)
    | (s', OLoop) => scan_loop P maxTok f s'
    end
  end.

(* Every iteration reads a byte, consumes an empty read or sees the final error,
   so this many iterations suffice. *)
Definition scan_fuel (s : scanner) : nat :=
  (length (concat (chunks (srd s))) + length (chunks (srd s)) + 3)%nat.

(* Tokenizer.Scan and Tokenizer.Token, runner/tokenizer.go:75-87. *)
Definition Scan (P : N -> bool) (maxTok : N) (s : scanner) : scanner * option bytes :=
  scan_loop P maxTok (scan_fuel s) s.

(* Tokenizer.Err, runner/tokenizer.go:90-92 with Scanner.Err. *)
Definition Err (s : scanner) : option rerr :=
  match serr s with Some EEOF => None | e => e end.

Definition MaxTokenLength : N := 4194304.   (* runner/tokenizer.go:13 *)

(* The tokens seen by a caller that scans until Scan returns false, with the
   reported positions, and the final Err. *)
Fixpoint scan_all (P : N -> bool) (maxTok : N) (fuel : nat) (s : scanner) : list (bytes * Z * Z) * option rerr :=
  match fuel with
  | O => ([], Err s)
  | S f =>
    match Scan P maxTok s with
    | (s', Some t) =>
      let (l, e) := scan_all P maxTok f s' in
      ((t, tline (spos s'), tcol (spos s')) :: l, e)
    | (s', None) => ([], Err s')
    end
  end.
Definition tokenize (P : N -> bool) (maxTok : N) (rd : reader) : list (bytes * Z * Z) * option rerr :=
  scan_all P maxTok (S (length (concat (chunks rd)))) (new_scanner rd).

(* Characters and token characters, from the Unicode standard and the
   documentation, without reference to the model. *)
From Coq Require Import List NArith ZArith.
Import ListNotations.
Local Open Scope N_scope.

(* Unicode scalar values and their UTF-8 encoding (RFC 3629, section 3). *)
Definition scalar (r : N) : Prop := r < 0xD800 \/ 0xE000 <= r < 0x110000.
Definition utf8 (r : N) : list N :=
  if r <? 0x80 then [r]
  else if r <? 0x800 then [0xC0 + r / 64; 0x80 + r mod 64]
  else if r <? 0x10000 then [0xE0 + r / 4096; 0x80 + r / 64 mod 64; 0x80 + r mod 64]
  else [0xF0 + r / 262144; 0x80 + r / 4096 mod 64; 0x80 + r / 64 mod 64; 0x80 + r mod 64].

(* The characters with the Unicode property White_Space (PropList.txt) ... *)
Definition white_space : list N :=
  [0x09; 0x0A; 0x0B; 0x0C; 0x0D; 0x20; 0x85; 0xA0; 0x1680;
   0x2000; 0x2001; 0x2002; 0x2003; 0x2004; 0x2005; 0x2006; 0x2007; 0x2008; 0x2009; 0x200A;
   0x2028; 0x2029; 0x202F; 0x205F; 0x3000].
(* ... and the separators Java takes as whitespace besides them. *)
Definition java_separators : list N := [0x1C; 0x1D; 0x1E; 0x1F].

(* Digits, decimal point and minus sign. *)
Definition numeric_chars : list N := [0x30; 0x31; 0x32; 0x33; 0x34; 0x35; 0x36; 0x37; 0x38; 0x39; 0x2E; 0x2D].

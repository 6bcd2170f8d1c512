(* Specification of the transfer codecs, independent of the in-place implementations:
   RFC 4648 (base64), RFC 2045 6.7 (quoted-printable), RFC 2047 4.2 (the Q encoding of
   headers), RFC 2231 (percent encoding), and the charset names of the crate. *)
From Verif Require Import Base Utf8.
Local Open Scope N_scope.

(* ---- base64 ---- *)
(* Table 1 of RFC 4648: the character of each 6-bit value *)
Definition b64_alphabet : list N :=
  [65;66;67;68;69;70;71;72;73;74;75;76;77;78;79;80;81;82;83;84;85;86;87;88;89;90;
   97;98;99;100;101;102;103;104;105;106;107;108;109;110;111;112;113;114;115;116;117;118;119;120;121;122;
   48;49;50;51;52;53;54;55;56;57;43;47].
Definition b64_symbol (v : N) : N := nth (N.to_nat v) b64_alphabet 0.
(* the 6-bit value of a character: its position in the table *)
Fixpoint position (c : N) (l : list N) : option N :=
  match l with
  | [] => None
  | x :: r => if c =? x then Some 0 else match position c r with Some p => Some (p + 1) | None => None end
  end.
Definition b64_value (c : N) : option N := position c b64_alphabet.

(* the significant characters of a text: alphabet characters and padding; every other
   byte is ignored (RFC 2045 6.8) *)
Inductive symbol := V (v : N) | Pad.
Fixpoint symbols (l : bytes) : list symbol :=
  match l with
  | [] => []
  | c :: r =>
    match b64_value c with
    | Some v => V v :: symbols r
    | None => if c =? 61 then Pad :: symbols r else symbols r
    end
  end.

(* the bytes carried by the first two, three, four values of a group *)
Definition octet1 (a b : N) : N := (a * 64 + b) / 16.
Definition octet2 (a b c : N) : N := ((a * 64 + b) * 64 + c) / 4 mod 256.
Definition octet3 (a b c d : N) : N := (((a * 64 + b) * 64 + c) * 64 + d) mod 256.

(* decoding of a symbol sequence, by groups of four; padding is only meaningful in the
   third and fourth place of a group (elsewhere it is ignored); a group cut short, or
   continued after "=", is refused *)
Inductive b64_state := G0 | G1 (a : N) | G2 (a b : N) | G3 (a b c : N) | G3Pad (a b : N).
Fixpoint b64_groups (s : b64_state) (l : list symbol) : option (list N) :=
  match l with
  | [] => match s with G0 => Some [] | _ => None end
  | x :: r =>
    match s, x with
    | G0, V a => b64_groups (G1 a) r
    | G0, Pad => b64_groups G0 r
    | G1 a, V b => b64_groups (G2 a b) r
    | G1 a, Pad => b64_groups (G1 a) r
    | G2 a b, V c => b64_groups (G3 a b c) r
    | G2 a b, Pad => b64_groups (G3Pad a b) r
    | G3 a b c, V d => option_map (app [octet1 a b; octet2 a b c; octet3 a b c d]) (b64_groups G0 r)
    | G3 a b c, Pad => option_map (app [octet1 a b; octet2 a b c]) (b64_groups G0 r)
    | G3Pad a b, V _ => None
    | G3Pad a b, Pad => option_map (app [octet1 a b]) (b64_groups G0 r)
    end
  end.
Definition b64_decoding (l : bytes) : option bytes := b64_groups G0 (symbols l).

(* the encoding, without line breaks *)
Fixpoint b64_encoding (l : bytes) : bytes :=
  match l with
  | [] => []
  | [x] => [b64_symbol (x / 4); b64_symbol (x mod 4 * 16); 61; 61]
  | [x; y] => [b64_symbol (x / 4); b64_symbol (x mod 4 * 16 + y / 16); b64_symbol (y mod 16 * 4); 61]
  | x :: y :: z :: r =>
    b64_symbol (x / 4) :: b64_symbol (x mod 4 * 16 + y / 16)
      :: b64_symbol (y mod 16 * 4 + z / 64) :: b64_symbol (z mod 64) :: b64_encoding r
  end.

(* ---- lines ---- *)
(* the lines of a text separated by CRLF (a text without CRLF is one line) *)
Definition add_to_first (c : N) (ls : list bytes) : list bytes :=
  match ls with [] => [[c]] | h :: t => (c :: h) :: t end.
Fixpoint lines_of (l : bytes) : list bytes :=
  match l with
  | [] => [[]]
  | c :: r =>
    match r with
    | d :: r' => if (c =? 13) && (d =? 10) then [] :: lines_of r' else add_to_first c (lines_of r)
    | [] => add_to_first c (lines_of r)
    end
  end.

(* ---- quoted-printable ---- *)
Definition hex_value (c : N) : option N :=
  match position c (bs "0123456789ABCDEF") with
  | Some v => Some v
  | None => position c (bs "0123456789abcdef")
  end.
Definition REPLACEMENT : bytes := [239; 191; 189]. (* U+FFFD in UTF-8 *)

(* what an escape "=" a b stands for *)
Definition escape (a b : N) : bytes :=
  match hex_value a, hex_value b with
  | Some x, Some y => [16 * x + y]
  | _, _ => REPLACEMENT
  end.

Fixpoint qp_decoding (l : bytes) : bytes :=
  match l with
  | [] => []
  | c :: r =>
    if c =? 61 then
      match r with
      | a :: b :: r' =>
        if (a =? 13) && (b =? 10) then qp_decoding r'         (* soft line break *)
        else escape a b ++ qp_decoding r'
      | _ => 61 :: qp_decoding r                               (* "=" too near the end *)
      end
    else if ((33 <=? c) && (c <=? 126)) || (c =? 32) || (c =? 9) then c :: qp_decoding r
    else match r with
         | d :: r' => if (c =? 13) && (d =? 10) then 13 :: 10 :: qp_decoding r'   (* line break *)
                      else REPLACEMENT ++ qp_decoding r
         | [] => REPLACEMENT ++ qp_decoding r
         end
  end.

(* RFC 2047 4.2: "_" is a space, escapes as above *)
Fixpoint q_decoding (l : bytes) : bytes :=
  match l with
  | [] => []
  | c :: r =>
    if c =? 61 then
      match r with
      | a :: b :: r' =>
        if (a =? 13) && (b =? 10) then q_decoding r' else escape a b ++ q_decoding r'
      | _ => 61 :: q_decoding r
      end
    else if c =? 95 then 32 :: q_decoding r
    else if (32 <=? c) && (c <=? 126) then c :: q_decoding r
    else REPLACEMENT ++ q_decoding r
  end.

(* RFC 2045 6.7 (1)-(5): what a line of quoted-printable text must look like *)
Definition qp_char (c : N) : Prop := 32 <= c <= 126 \/ c = 9.
Definition ends_blank (line : bytes) : Prop := exists l b, line = l ++ [b] /\ (b = 32 \/ b = 9).
Definition good_line (line : bytes) : Prop := Forall qp_char line /\ (length line <= 76)%nat /\ ~ ends_blank line.

(* ---- percent encoding ---- *)
(* left-to-right decoding; a "%" that is not followed by two hexadecimal digits stays *)
Fixpoint percent_decoding (l : bytes) : bytes :=
  match l with
  | [] => []
  | c :: r =>
    if c =? 37 then
      match r with
      | a :: b :: r' =>
        match hex_value a, hex_value b with
        | Some x, Some y => (16 * x + y) :: percent_decoding r'
        | _, _ => c :: percent_decoding r
        end
      | _ => c :: percent_decoding r
      end
    else c :: percent_decoding r
  end.

(* right-to-left rewriting: each "%" looks at what follows after that has been decoded.
   The crate does this; it is [percent_decoding] whenever every "%" starts an escape (C13) *)
Definition rtl_step (r : bytes) : bytes :=
  match r with
  | a :: b :: t => match hex_value a, hex_value b with Some x, Some y => (16 * x + y) :: t | _, _ => 37 :: r end
  | _ => 37 :: r
  end.
Fixpoint rtl (l : bytes) : bytes :=
  match l with
  | [] => []
  | c :: r => if c =? 37 then rtl_step (rtl r) else c :: rtl r
  end.

(* every "%" starts a two-digit escape *)
Fixpoint percents_ok (l : bytes) : Prop :=
  match l with
  | [] => True
  | c :: r =>
    (c = 37 -> exists a b t x y, r = a :: b :: t /\ hex_value a = Some x /\ hex_value b = Some y) /\ percents_ok r
  end.

(* [percent_encodes v t]: t is an encoding of the bytes v. An encoder may escape any
   bytes it likes, but must escape "%" *)
Inductive percent_encodes : bytes -> bytes -> Prop :=
| pe_nil : percent_encodes [] []
| pe_literal : forall c v t, c <> 37 -> percent_encodes v t -> percent_encodes (c :: v) (c :: t)
| pe_escape : forall c h l x y v t, hex_value h = Some x -> hex_value l = Some y -> c = 16 * x + y ->
    percent_encodes v t -> percent_encodes (c :: v) (37 :: h :: l :: t).

(* ---- charsets ---- *)
Definition charset_names : list bytes :=
  [bs "utf-8"; bs "us-ascii"; bs "iso-8859-1"; bs "iso-8859-2"; bs "iso-8859-3"; bs "iso-8859-4"; bs "iso-8859-5";
   bs "iso-8859-6"; bs "iso-8859-7"; bs "iso-8859-8"; bs "iso-8859-9"; bs "iso-8859-10"; bs "iso-8859-11";
   bs "iso-8859-13"; bs "iso-8859-14"; bs "iso-8859-15"; bs "iso-8859-16"; bs "iso-6937"; bs "gb2312"].

(* Names (case-insensitive) of the charsets the crate knows, and how each is decoded:
   UTF-8 and US-ASCII by a UTF-8 check, the others by the textcode crate. *)
Inductive charset_decodes (tc : charset_id -> bytes -> bytes) : bytes -> bytes -> bytes -> Prop :=
| decodes_utf8 : forall raw, utf8_valid raw = true -> charset_decodes tc (bs "utf-8") raw raw
| decodes_ascii : forall raw, utf8_valid raw = true -> charset_decodes tc (bs "us-ascii") raw raw
| decodes_8859_1 : forall raw, charset_decodes tc (bs "iso-8859-1") raw (tc (ISO8859 1) raw)
| decodes_8859_2 : forall raw, charset_decodes tc (bs "iso-8859-2") raw (tc (ISO8859 2) raw)
| decodes_8859_3 : forall raw, charset_decodes tc (bs "iso-8859-3") raw (tc (ISO8859 3) raw)
| decodes_8859_4 : forall raw, charset_decodes tc (bs "iso-8859-4") raw (tc (ISO8859 4) raw)
| decodes_8859_5 : forall raw, charset_decodes tc (bs "iso-8859-5") raw (tc (ISO8859 5) raw)
| decodes_8859_6 : forall raw, charset_decodes tc (bs "iso-8859-6") raw (tc (ISO8859 6) raw)
| decodes_8859_7 : forall raw, charset_decodes tc (bs "iso-8859-7") raw (tc (ISO8859 7) raw)
| decodes_8859_8 : forall raw, charset_decodes tc (bs "iso-8859-8") raw (tc (ISO8859 8) raw)
| decodes_8859_9 : forall raw, charset_decodes tc (bs "iso-8859-9") raw (tc (ISO8859 9) raw)
| decodes_8859_10 : forall raw, charset_decodes tc (bs "iso-8859-10") raw (tc (ISO8859 10) raw)
| decodes_8859_11 : forall raw, charset_decodes tc (bs "iso-8859-11") raw (tc (ISO8859 11) raw)
| decodes_8859_13 : forall raw, charset_decodes tc (bs "iso-8859-13") raw (tc (ISO8859 13) raw)
| decodes_8859_14 : forall raw, charset_decodes tc (bs "iso-8859-14") raw (tc (ISO8859 14) raw)
| decodes_8859_15 : forall raw, charset_decodes tc (bs "iso-8859-15") raw (tc (ISO8859 15) raw)
| decodes_8859_16 : forall raw, charset_decodes tc (bs "iso-8859-16") raw (tc (ISO8859 16) raw)
| decodes_6937 : forall raw, charset_decodes tc (bs "iso-6937") raw (tc ISO6937 raw)
| decodes_gb2312 : forall raw, charset_decodes tc (bs "gb2312") raw (tc GB2312 raw).

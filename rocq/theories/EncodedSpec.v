(* Specification for C14 and C15: how encoded words are written (RFC 2047, with the language
   of RFC 2231), and what a text with encoded words stands for. *)
From Verif Require Import Base Utf8 Rfc5322 CodecSpec Rfc2047.
Local Open Scope N_scope.

(* RFC 2047 4.2, the Q encoding: "_" for a space, "=" and two hexadecimal digits for any byte,
   and any visible character other than "=", "?" and "_" for itself *)
Inductive q_written : bytes -> bytes -> Prop :=
| q_nil : q_written [] []
| q_space : forall t v, q_written t v -> q_written (bs "_" ++ t) (bs " " ++ v)
| q_char : forall c t v, 33 <= c <= 126 -> c <> 61 -> c <> 63 -> c <> 95 -> q_written t v -> q_written ([c] ++ t) ([c] ++ v)
| q_byte : forall h l x y t v, hex_value h = Some x -> hex_value l = Some y -> q_written t v ->
    q_written ([61; h; l] ++ t) ([16 * x + y] ++ v).
Inductive ew_written_text : bytes -> bytes -> bytes -> Prop :=
| written_b : forall e v, same_nocase e (bs "b") -> ew_written_text e (b64_encoding v) v
| written_q : forall e t v, same_nocase e (bs "q") -> q_written t v -> ew_written_text e t v.
(* c is an encoded word for the (not empty) UTF-8 text v *)
Inductive written_encoded : bytes -> bytes -> Prop :=
| written_encoded_intro : forall charset lang e t v, same_nocase charset (bs "utf-8") -> ew_language lang -> ew_written_text e t v ->
    v <> [] -> utf8_valid v = true -> written_encoded (bs "=?" ++ charset ++ lang ++ bs "?" ++ e ++ bs "?" ++ t ++ bs "?=") v.

(* ---- text with encoded words ---- *)
Inductive item :=
| Plain (w : bytes)          (* visible characters *)
| Encoded (c v : bytes).     (* an encoded word c for the text v *)
(* white space, folded or not, with its unfolded text, before each item *)
Definition spaced := (bytes * bytes * item)%type.
Definition item_text (x : item) : bytes := match x with Plain w => w | Encoded c _ => c end.
Definition text_of (l : list spaced) : bytes := concat (map (fun '(w, _, x) => w ++ item_text x) l).
(* white space between two encoded words disappears, everything else is kept *)
Fixpoint meaning (after_encoded : bool) (l : list spaced) : bytes :=
  match l with
  | [] => []
  | (_, u, Plain w) :: r => u ++ w ++ meaning false r
  | (_, u, Encoded _ v) :: r => (if after_encoded then [] else u) ++ v ++ meaning true r
  end.
(* encoded words as written above; plain words without "=?", and followed by white space *)
Definition good_item (x : item) : Prop :=
  match x with
  | Plain w => chars1 rfc_VCHAR w /\ forall a b, w <> a ++ bs "=?" ++ b
  | Encoded c v => written_encoded c v
  end.
Fixpoint well_spaced (l : list spaced) : Prop :=
  match l with
  | [] => True
  | (w, u, x) :: r =>
    rfc_oFWS w u /\ good_item x /\ well_spaced r /\
    match x, r with Plain _, (w', _, _) :: _ => w' <> [] | _, _ => True end
  end.

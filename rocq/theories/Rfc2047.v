(* Specification: encoded words of RFC 2047 (with the language suffix of RFC 2231 5). *)
From Verif Require Import Base Rfc5322 CodecSpec.
Local Open Scope N_scope.

(* RFC 2047 2: token = any CHAR except SPACE, CTLs and especials *)
Definition ew_token_char (c : byte) : Prop :=
  33 <= c <= 126 /\ ~ In c (bs "()<>@,;:\/[]?.=" ++ [34]).
(* a charset name does not contain the "*" that introduces a language *)
Definition ew_charset_char (c : byte) : Prop := ew_token_char c /\ c <> 42.
(* encoded-text = any printable ASCII character other than "?" or SPACE *)
Definition ew_text_char (c : byte) : Prop := 33 <= c <= 126 /\ c <> 63.

Inductive ew_language : bytes -> Prop :=
| ew_language_none : ew_language []
| ew_language_some : forall l, chars1 ew_token_char l -> ew_language (bs "*" ++ l).

(* the two encodings, named in any case *)
Inductive ew_decodes : bytes -> bytes -> bytes -> Prop :=
| ew_b : forall e text raw, same_nocase e (bs "b") -> b64_decoding text = Some raw -> ew_decodes e text raw
| ew_q : forall e text, same_nocase e (bs "q") -> ew_decodes e text (q_decoding text).

(* "=?" charset ["*" language] "?" encoding "?" encoded-text "?=" *)
Inductive rfc_encoded_word (tc : charset_id -> bytes -> bytes) : bytes -> bytes -> Prop :=
| encoded_word_intro : forall charset lang e text raw v,
    chars1 ew_charset_char charset -> ew_language lang -> chars1 ew_text_char text ->
    ew_decodes e text raw -> charset_decodes tc (map fold_case charset) raw v ->
    rfc_encoded_word tc (bs "=?" ++ charset ++ lang ++ bs "?" ++ e ++ bs "?" ++ text ++ bs "?=") v.

(* Unstructured text with encoded words: the blanks before an encoded word are dropped
   when it directly follows another one (RFC 2047 6.2). [after]: an encoded word came
   just before. *)
Inductive mime_utext (tc : charset_id -> bytes -> bytes) : bool -> bytes -> bytes -> Prop :=
| mime_utext_nil : forall after, mime_utext tc after [] []
| mime_utext_char : forall after w v c t x, rfc_oFWS w v -> rfc_VCHAR c -> mime_utext tc false t x ->
    mime_utext tc after (w ++ [c] ++ t) (v ++ [c] ++ x)
| mime_utext_word : forall (after : bool) w v e d t x, rfc_oFWS w v -> rfc_encoded_word tc e d -> mime_utext tc true t x ->
    mime_utext tc after (w ++ e ++ t) ((if after then [] else v) ++ d ++ x).
Inductive mime_unstructured_text (tc : charset_id -> bytes -> bytes) : bytes -> bytes -> Prop :=
| mime_unstructured_intro : forall t v w, mime_utext tc false t v -> chars rfc_WSP w ->
    mime_unstructured_text tc (t ++ w) v.

(* Specification for C53: the texts of whole messages, for the builds with the mime feature. The
   MIME headers with parameters are read from left to right, and what is read as a parameter may
   depend on the text after it. *)
From Verif Require Import Base Time Address Percent MimeFields Fields Rfc5322 Rfc2047 CodecSpec RfcFields Complete CompleteFields LineSpec EmailSpec ExactSpec PhraseSpec.
Local Open Scope N_scope.

(* ---- parameters ---- *)
(* a token; or a quoted string, which takes the white space after it as well *)
Inductive mime_value : bool -> bytes -> bytes -> Prop :=
| mime_value_token : forall c, mime_token c -> mime_value false c c
| mime_value_quoted : forall c v, rfc_quoted_string c v -> mime_value true c v.
(* items, each of them read with the text after it in view; the flag tells whether the last one
   takes the white space after it *)
Inductive items {A} (P : bytes -> bool -> bytes -> A -> Prop) (rest : bytes) : bool -> bytes -> list A -> Prop :=
| items_none : items P rest false [] []
| items_last : forall q c a, P rest q c a -> items P rest q c [a]
| items_more : forall q q' c a cs b l, P (cs ++ rest) q' c a -> items P rest q cs (b :: l) -> items P rest q (c ++ cs) (a :: b :: l).
Inductive mime_param (rest : bytes) : bool -> bytes -> param -> Prop :=
| mime_param_intro : forall w w' n a i e q c v, rfc_oCFWS w -> rfc_oCFWS w' -> clear_param_name n (a, i, e) -> mime_value q c v ->
    mime_param rest q (w ++ bs ";" ++ w' ++ n ++ bs "=" ++ c) (a, i, e, v).

(* RFC 2183: a parameter with the name of a date is a date if a date between quotes comes after
   its name, and another parameter otherwise *)
Definition dated : list (string * (date_time_t -> disposition_item)) :=
  [("creation-date"%string, DCreation); ("modification-date"%string, DModification); ("read-date"%string, DRead)].
Inductive mime_item (rest : bytes) : bool -> bytes -> disposition_item -> Prop :=
| mime_filename : forall w w' n q c v, rfc_oCFWS w -> rfc_oCFWS w' -> same_nocase n (bs "filename") -> mime_value q c v ->
    mime_item rest q (w ++ bs ";" ++ w' ++ n ++ bs "=" ++ c) (DFilename v)
| mime_dated : forall name mk w w' n c d, In (name, mk) dated -> rfc_oCFWS w -> rfc_oCFWS w' -> same_nocase n (bs name) -> rfc_date_value c d ->
    mime_item rest false (w ++ bs ";" ++ w' ++ n ++ bs "=" ++ [34] ++ c ++ [34]) (mk d)
| mime_other : forall w w' n a i e q c v, rfc_oCFWS w -> rfc_oCFWS w' -> clear_param_name n (a, i, e) -> mime_value q c v ->
    ~ same_nocase n (bs "filename") ->
    (forall name mk t d z, In (name, mk) dated -> same_nocase n (bs name) -> rfc_date_value t d -> c ++ rest <> [34] ++ t ++ [34] ++ z) ->
    mime_item rest q (w ++ bs ";" ++ w' ++ n ++ bs "=" ++ c) (DParam (a, i, e, v)).

(* ---- headers ---- *)
(* the values, before the text rest; x is what comes after the last parameter *)
Inductive type_value (E : env) (rest : bytes) : bool -> bytes -> bytes -> content_type_t * bytes * list (bytes * bytes) -> Prop :=
| type_value_intro : forall w c t s ps raw l x q, rfc_oCFWS w -> clear_keyword mime_types CUnknown c t -> mime_token s ->
    items mime_param (x ++ rest) q ps raw -> params_value (textcode E) raw l -> inline_cfws x ->
    type_value E rest q (w ++ c ++ bs "/" ++ s ++ ps ++ x) x (t, map fold_case s, l).
Inductive disposition_value (E : env) (rest : bytes) : bool -> bytes -> bytes -> disposition_t -> Prop :=
| disposition_value_intro : forall w c k is l r x q, rfc_oCFWS w -> clear_keyword mime_dispositions DUnknown c k ->
    items mime_item (x ++ rest) q is l -> params_value (textcode E) (params_of l) r -> inline_cfws x ->
    disposition_value E rest q (w ++ c ++ is ++ x) x
      {| disposition_type := k;
         disp_filename := last_some (fun i => match i with DFilename v => Some v | _ => None end) l;
         disp_creation_date := last_some (fun i => match i with DCreation v => Some v | _ => None end) l;
         disp_modification_date := last_some (fun i => match i with DModification v => Some v | _ => None end) l;
         disp_read_date := last_some (fun i => match i with DRead v => Some v | _ => None end) l;
         disp_unstructured := r |}.
(* a header of its grammar *)
Inductive mime_field (E : env) : bytes -> field -> Prop :=
| mime_clear : forall c f, clear_field E c f -> ~ with_phrases f -> mime_field E c f
| mime_phrases : forall c f, phrase_field E c f -> mime_field E c f
| mime_type_field : forall n q t x k s l, same_nocase n (bs "Content-Type") -> type_value E CRLF q t x (k, s, l) ->
    mime_field E (n ++ [58] ++ t ++ CRLF) (FContentType k s l)
| mime_disposition_field : forall n q t x d, same_nocase n (bs "Content-Disposition") -> disposition_value E CRLF q t x d ->
    mime_field E (n ++ [58] ++ t ++ CRLF) (FContentDisposition d).
(* a header which is taken to end at a line end although the next line continues it: its last
   parameter is no quoted string, and r does not start with a further parameter; or its last word
   is an encoded word, and r does not start with a further word *)
Inductive cut_field (E : env) : bytes -> bytes -> Prop :=
| cut_version : forall c v r, rfc_header "MIME-Version" rfc_mime_version c v -> cut_field E c r
| cut_encoding : forall c e r, rfc_header "Content-Transfer-Encoding" clear_encoding c e -> cut_field E c r
| cut_type : forall n t x v r, same_nocase n (bs "Content-Type") -> type_value E (CRLF ++ r) false t x v ->
    (forall q c a z, x ++ CRLF ++ r = c ++ z -> ~ mime_param z q c a) -> cut_field E (n ++ [58] ++ t ++ CRLF) r
| cut_disposition : forall n t x d r, same_nocase n (bs "Content-Disposition") -> disposition_value E (CRLF ++ r) false t x d ->
    (forall q c a z, x ++ CRLF ++ r = c ++ z -> ~ mime_item z q c a) -> cut_field E (n ++ [58] ++ t ++ CRLF) r
| cut_keywords : forall n t l r, f_keywords E = true -> same_nocase n (bs "Keywords") -> read_keywords (textcode E) (CRLF ++ r) true t l ->
    (forall k c vs z, CRLF ++ r = c ++ z -> ~ read_phrase (textcode E) z k c vs) -> cut_field E (n ++ [58] ++ t ++ CRLF) r.

(* a header outside of the trace blocks: one of the grammar of its name; or an unknown one, if it
   is neither such a header nor cut like one *)
Inductive mime_read (E : env) : bytes -> field -> Prop :=
| mime_read_field : forall c f, mime_field E c f -> mime_read E c f
| mime_read_unstructured : forall n t v, chars1 rfc_ftext n -> clear_text_value (f_unrecognized_headers E) (textcode E) t v ->
    (forall f, ~ mime_field E (n ++ bs ":" ++ t ++ CRLF) f) ->
    (forall c r, n ++ bs ":" ++ t ++ CRLF = c ++ r -> r <> [] -> ~ cut_field E c r) ->
    mime_read E (n ++ bs ":" ++ t ++ CRLF) (FUnknown n v).

(* trace blocks, as in CompleteFields.v *)
Inductive mime_block (E : env) : bytes -> field -> Prop :=
| mime_block_intro : forall c1 p c2 r c3 l, clear_return (f_compatibility_fixes E) c1 p ->
    r <> [] -> many_of (rfc_header "Received" (tidily (clear_received (f_compatibility_fixes E)))) c2 r ->
    many_of (phrase_resent E) c3 l ->
    mime_block E (c1 ++ c2 ++ c3) (FTrace p r l).
Inductive mime_blocks (E : env) : bytes -> list field -> Prop :=
| mime_blocks_nil : mime_blocks E [] []
| mime_blocks_cons : forall c f cs fs, mime_block E c f -> separate f fs -> mime_blocks E cs fs -> mime_blocks E (c ++ cs) (f :: fs).

(* the message, as in ExactSpec.v *)
Inductive mime_message_read (E : env) : bytes -> list field -> option bytes -> Prop :=
| mime_message_intro : forall c1 t c2 l c3 b, mime_blocks E c1 t -> (f_trace E = false -> t = []) ->
    (f_trace E = true -> ~ begins (block_start E) (c2 ++ c3)) ->
    (t <> [] -> ~ begins (phrase_resent E) (c2 ++ c3)) ->
    many_of (mime_read E) c2 l -> rest_text c3 b ->
    mime_message_read E (c1 ++ c2 ++ c3) (t ++ l) b.

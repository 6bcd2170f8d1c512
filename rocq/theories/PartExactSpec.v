(* Specification for C56: the texts of the parts of a multipart, and the trees of parts they stand
   for. Whatever the text is, not only for well-formed ones. *)
From Verif Require Import Base Utf8 Time Address MimeFields Fields Entity Rfc5322 Rfc2047 CodecSpec RfcFields EmailSpec Complete CompleteFields MultipartSpec EntitySpec CutSpec TreeSpec MimeExactSpec.
Local Open Scope N_scope.

(* ---- the headers of a part ---- *)
(* a header of its grammar *)
Inductive part_field (E : env) : bytes -> entity_header -> Prop :=
| part_field_encoding : forall c e, rfc_header "Content-Transfer-Encoding" clear_encoding c e -> part_field E c (HEncoding e)
| part_field_type : forall n q t x k s l, same_nocase n (bs "Content-Type") -> type_value E CRLF q t x (k, s, l) ->
    part_field E (n ++ [58] ++ t ++ CRLF) (HType k s l)
| part_field_id : forall c i, rfc_header "Content-ID" (tidily (rfc_msg_id (f_compatibility_fixes E))) c i -> part_field E c (HId i)
| part_field_description : forall c d, rfc_header "Content-Description" (clear_text (textcode E)) c d -> part_field E c (HDescription d)
| part_field_disposition : forall n q t x d, same_nocase n (bs "Content-Disposition") -> disposition_value E CRLF q t x d ->
    part_field E (n ++ [58] ++ t ++ CRLF) (HDisposition d).
(* a header which is taken to end at a line end although the next line continues it, as in
   MimeExactSpec.v *)
Inductive part_cut (E : env) : bytes -> bytes -> Prop :=
| part_cut_encoding : forall c e r, rfc_header "Content-Transfer-Encoding" clear_encoding c e -> part_cut E c r
| part_cut_type : forall n t x v r, same_nocase n (bs "Content-Type") -> type_value E (CRLF ++ r) false t x v ->
    (forall q c a z, x ++ CRLF ++ r = c ++ z -> ~ mime_param z q c a) -> part_cut E (n ++ [58] ++ t ++ CRLF) r
| part_cut_disposition : forall n t x d r, same_nocase n (bs "Content-Disposition") -> disposition_value E (CRLF ++ r) false t x d ->
    (forall q c a z, x ++ CRLF ++ r = c ++ z -> ~ mime_item z q c a) -> part_cut E (n ++ [58] ++ t ++ CRLF) r.
(* any other header is kept as it is: MIME-Version as well, and those that are none of their
   grammar *)
Inductive part_read (E : env) : bytes -> entity_header -> Prop :=
| part_read_field : forall c h, part_field E c h -> part_read E c h
| part_read_other : forall n t v, chars1 rfc_ftext n -> clear_text_value (f_unrecognized_headers E) (textcode E) t v ->
    (forall h, ~ part_field E (n ++ bs ":" ++ t ++ CRLF) h) ->
    (forall c r, n ++ bs ":" ++ t ++ CRLF = c ++ r -> r <> [] -> ~ part_cut E c r) ->
    part_read E (n ++ bs ":" ++ t ++ CRLF) (HOther n v).
(* headers; then nothing, or an empty line and the content *)
Definition part_text_read (E : env) (i : bytes) (hs : list entity_header) (b : bytes) : Prop :=
  exists c c', i = c ++ c' /\ many_of (part_read E) c hs /\ content_after c' b.

(* ---- trees ---- *)
(* the tree of a decoded content; a multipart is cut as in CutSpec.v *)
Inductive shape (E : env) : content_type_t * bytes * list (bytes * bytes) -> bytes -> tree -> Prop :=
| shape_text : forall s ps v cs x, map_get ps (bs "charset") = Some cs -> charset_decodes (textcode E) (map fold_case cs) v x -> shape E (CText, s, ps) v (Text s x)
| shape_data : forall t s ps v, t <> CText -> t <> CMultipart -> shape E (t, s, ps) v (Data t s v)
| shape_parts : forall s ps v b parts ts, map_get ps (bs "boundary") = Some b -> cut_parts b v parts -> shapes E parts ts -> shape E (CMultipart, s, ps) v (Parts s ts)
with shapes (E : env) : list bytes -> list tree -> Prop :=
| shapes_nil : shapes E [] []
| shapes_cons : forall i hs b v t is ts, part_text_read E i hs b -> transfer_decoded (encoding_of (last_some of_encoding hs)) b v ->
    shape E (type_of (last_some of_type hs)) v t -> shapes E is ts -> shapes E (i :: is) (t :: ts).

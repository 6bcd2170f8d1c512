(* Specification of MIME entities (RFC 2045, RFC 2046): the headers and the value of a body
   part, and what an entity is parsed to. *)
From Verif Require Import Base Utf8 Time Address MimeFields Fields Entity Rfc5322 Rfc2047 CodecSpec RfcFields EmailSpec MultipartSpec.

(* ---- the headers of a part ---- *)
Inductive part_header (E : env) : bytes -> entity_header -> Prop :=
| part_encoding : forall c e, rfc_header "Content-Transfer-Encoding" rfc_encoding c e -> part_header E c (HEncoding e)
| part_type : forall c t s p, rfc_header "Content-Type" (rfc_content_type (textcode E)) c (t, s, p) -> part_header E c (HType t s p)
| part_id : forall c i, rfc_header "Content-ID" (rfc_msg_id (f_compatibility_fixes E)) c i -> part_header E c (HId i)
| part_description : forall c d, rfc_header "Content-Description" (mime_unstructured_text (textcode E)) c d -> part_header E c (HDescription d)
| part_disposition : forall c d, rfc_header "Content-Disposition" (rfc_disposition (textcode E)) c d -> part_header E c (HDisposition d)
| part_other : forall c n v, rfc_unknown E c (n, v) -> part_header E c (HOther n v).

Definition of_encoding h := match h with HEncoding e => Some e | _ => None end.
Definition of_type h := match h with HType t s p => Some (t, s, p) | _ => None end.
Definition of_id h := match h with HId i => Some i | _ => None end.
Definition of_description h := match h with HDescription d => Some d | _ => None end.
Definition of_disposition h := match h with HDisposition d => Some d | _ => None end.
Definition of_other h := match h with HOther n v => Some (n, v) | _ => None end.

(* the part with headers hs and (transfer-encoded) content v; the last header of a kind counts *)
Record part_of (hs : list entity_header) (b : bytes) (r : raw_entity_t) : Prop := {
  of_part_type : (e_mime_type r, e_subtype r, e_parameters r) = type_of (last_some of_type hs);
  of_part_id : e_id r = last_some of_id hs;
  of_part_description : e_description r = last_some of_description hs;
  of_part_disposition : e_disposition r = last_some of_disposition hs;
  of_part_other : e_additional_headers r = concat (map (fun h => opt_list (of_other h)) hs);
  of_part_value : transfer_decoded (encoding_of (last_some of_encoding hs)) b (e_value r)
}.
(* the text of a part: headers, then nothing or an empty line and the content *)
Definition part_text (E : env) (i : bytes) (hs : list entity_header) (b : bytes) : Prop :=
  exists c c', i = c ++ c' /\ many_of (part_header E) c hs /\ (c' = [] /\ b = [] \/ c' = CRLF ++ b).

(* ---- parsing an entity further ---- *)
(* the text is cut at delimiter lines *)
Inductive cut_text (b : bytes) : bytes -> list bytes -> Prop :=
| cut_last : forall p epi, cut_text b (p ++ closing_delimiter b ++ epi) [p]
| cut_start : forall t ps, cut_text b t ps -> cut_text b (dash_boundary b ++ CRLF ++ t) ([] :: ps)
| cut_more : forall p t ps, cut_text b t ps -> cut_text b (p ++ delimiter b ++ t) (p :: ps).
Inductive entity_meaning (E : env) (r : raw_entity_t) : entity_t -> Prop :=
| meaning_multipart : forall b preamble parts es, e_mime_type r = CMultipart ->
    map_get (e_parameters r) (bs "boundary") = Some b ->
    cut_text b (e_value r) (preamble :: parts) ->
    Forall2 (fun p e => exists hs t, part_text E p hs t /\ part_of hs t e) parts es ->
    entity_meaning E r (EMultipart (e_subtype r) es)
| meaning_text : forall cs v, e_mime_type r = CText -> map_get (e_parameters r) (bs "charset") = Some cs ->
    charset_decodes (textcode E) (map fold_case cs) (e_value r) v -> entity_meaning E r (EText (e_subtype r) v)
| meaning_other : e_mime_type r <> CMultipart -> e_mime_type r <> CText -> entity_meaning E r EUnknown
| meaning_charset : e_mime_type r = CText ->
    (forall cs, map_get (e_parameters r) (bs "charset") = Some cs -> ~ In (map fold_case cs) charset_names) ->
    entity_meaning E r EUnknown.

(* Specification for C48: a MIME message as a tree of texts, data and multiparts, how such trees
   are written (RFC 2045, RFC 2046), and how they are obtained by parsing entities recursively. *)
From Verif Require Import Base Utf8 Time Address MimeFields Fields Entity Rfc5322 Rfc2047 CodecSpec RfcFields EmailSpec Complete CompleteFields MultipartSpec EntitySpec.
Local Open Scope N_scope.

(* the leaves are the decoded texts and the decoded data *)
Inductive tree :=
| Text (subtype text : bytes)
| Data (type : content_type_t) (subtype data : bytes)
| Parts (subtype : bytes) (parts : list tree).

(* ---- how trees are written ---- *)
(* the headers of a part, in the unambiguous part of the grammar (CompleteFields.v) *)
Definition part_names : list string := ["Content-Transfer-Encoding"; "Content-Type"; "Content-ID"; "Content-Description"; "Content-Disposition"]%string.
Inductive clear_part_header (E : env) : bytes -> entity_header -> Prop :=
| clear_part_encoding : forall c e, rfc_header "Content-Transfer-Encoding" clear_encoding c e -> clear_part_header E c (HEncoding e)
| clear_part_type : forall c t s p, rfc_header "Content-Type" (clear_content_type E) c (t, s, p) -> clear_part_header E c (HType t s p)
| clear_part_id : forall c i, rfc_header "Content-ID" (tidily (rfc_msg_id (f_compatibility_fixes E))) c i -> clear_part_header E c (HId i)
| clear_part_description : forall c d, rfc_header "Content-Description" (clear_text (textcode E)) c d -> clear_part_header E c (HDescription d)
| clear_part_disposition : forall c d, rfc_header "Content-Disposition" (clear_disposition E) c d -> clear_part_header E c (HDisposition d)
| clear_part_other : forall n c v, chars1 rfc_ftext n -> (forall name, In name part_names -> ~ same_nocase n (bs name)) ->
    clear_text_value (f_unrecognized_headers E) (textcode E) c v -> clear_part_header E (n ++ [58] ++ c ++ CRLF) (HOther n v).
(* after the headers: nothing, or an empty line and the content *)
Definition content_after (c b : bytes) : Prop := c = [] /\ b = [] \/ c = CRLF ++ b.
(* the content b, of the given type and transfer encoding, stands for the tree *)
Inductive content (E : env) : content_type_t * bytes * list (bytes * bytes) -> encoding_t -> bytes -> tree -> Prop :=
| content_text : forall s ps enc b cs raw v, map_get ps (bs "charset") = Some cs -> transfer_decoded enc b raw ->
    charset_decodes (textcode E) (map fold_case cs) raw v -> content E (CText, s, ps) enc b (Text s v)
| content_data : forall t s ps enc b v, t <> CText -> t <> CMultipart -> transfer_decoded enc b v -> content E (t, s, ps) enc b (Data t s v)
| content_parts : forall s ps enc b boundary text parts ts, map_get ps (bs "boundary") = Some boundary -> ~ In 13 boundary ->
    transfer_decoded enc b text -> Forall (clean boundary) parts -> multipart_text boundary parts text -> all_parts E parts ts ->
    content E (CMultipart, s, ps) enc b (Parts s ts)
(* each text is a part: headers, then the content *)
with all_parts (E : env) : list bytes -> list tree -> Prop :=
| all_parts_nil : all_parts E [] []
| all_parts_cons : forall c hs c' b t cs ts, many_of (clear_part_header E) c hs -> content_after c' b ->
    content E (type_of (last_some of_type hs)) (encoding_of (last_some of_encoding hs)) b t -> all_parts E cs ts ->
    all_parts E ((c ++ c') :: cs) (t :: ts).

(* the body of a message; without one, it is empty *)
Definition content_of (b : option bytes) : bytes := match b with Some x => x | None => [] end.

(* ---- how trees are read: RawEntity::parse (entity) on every part ---- *)
Inductive shows (E : env) : raw_entity_t -> tree -> Prop :=
| shows_text : forall r s v, entity E r = Ok (EText s v) -> shows E r (Text s v)
| shows_data : forall r, entity E r = Ok EUnknown -> e_mime_type r <> CText -> shows E r (Data (e_mime_type r) (e_subtype r) (e_value r))
| shows_parts : forall r s rs ts, entity E r = Ok (EMultipart s rs) -> shows_all E rs ts -> shows E r (Parts s ts)
with shows_all (E : env) : list raw_entity_t -> list tree -> Prop :=
| shows_nil : shows_all E [] []
| shows_cons : forall r t rs ts, shows E r t -> shows_all E rs ts -> shows_all E (r :: rs) (t :: ts).

(* ---- the trees that can be written: types in lower case, texts in UTF-8 ---- *)
Definition lower_token (s : bytes) : Prop := mime_token s /\ map fold_case s = s.
Inductive writable_type : content_type_t -> Prop :=
| writable_known : forall n t, In (n, t) mime_types -> t <> CText -> t <> CMultipart -> writable_type t
| writable_unknown : forall n, lower_token n -> (forall k t x y, In (k, t) mime_types -> n = x ++ y -> x <> k) -> writable_type (CUnknown n).
Inductive writable : tree -> Prop :=
| writable_text : forall s v, lower_token s -> utf8_valid v = true -> writable (Text s v)
| writable_data : forall t s v, writable_type t -> lower_token s -> wf_bytes v -> writable (Data t s v)
| writable_parts : forall s ts, lower_token s -> writables ts -> writable (Parts s ts)
with writables : list tree -> Prop :=
| writables_nil : writables []
| writables_cons : forall t ts, writable t -> writables ts -> writables (t :: ts).

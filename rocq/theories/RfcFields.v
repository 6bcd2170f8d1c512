(* Specification of headers and messages: RFC 5322 3.6 (header fields), RFC 2045 and RFC
   2183 (MIME headers), RFC 2231 (parameter continuations), as relations between a text and
   a value, on top of Rfc5322.v and Rfc2047.v. *)
From Verif Require Import Base Utf8 Time Address Percent MimeFields Fields Rfc5322 Rfc2047 CodecSpec.
Local Open Scope N_scope.

(* encoded words exist with the mime feature only *)
Definition encoded (E : env) (c v : bytes) : Prop := f_mime E = true /\ rfc_encoded_word (textcode E) c v.

(* header = name ":" value CRLF, the name in any case *)
Inductive rfc_header {A} (name : string) (V : bytes -> A -> Prop) : bytes -> A -> Prop :=
| header_intro : forall n c v, same_nocase n (bs name) -> V c v ->
    rfc_header name V (n ++ [58] ++ c ++ CRLF) v.

(* ---- RFC 5322 ---- *)
(* text with encoded words if mime is enabled *)
Definition rfc_text_value (mime : bool) (tc : charset_id -> bytes -> bytes) (c v : bytes) : Prop :=
  if mime then mime_unstructured_text tc c v else rfc_unstructured c v.
Definition rfc_date_value (c : bytes) (d : date_time_t) : Prop := rfc_date_time c d /\ date_in_range d.
(* bcc = [address-list / CFWS] *)
Inductive rfc_bcc (compat : bool) (EW : bytes -> bytes -> Prop) : bytes -> list address_t -> Prop :=
| bcc_list : forall c l, rfc_address_list compat EW c l -> rfc_bcc compat EW c l
| bcc_empty : forall c, rfc_CFWS c -> rfc_bcc compat EW c [].
Definition rfc_msg_ids (compat : bool) (c : bytes) (l : list (bytes * bytes)) : Prop :=
  l <> [] /\ many_of (rfc_msg_id compat) c l.
(* path = angle-addr / ([CFWS] "<" [CFWS] ">" [CFWS]) *)
Inductive rfc_path (compat : bool) : bytes -> option email_address -> Prop :=
| path_address : forall c a, rfc_angle_addr compat c a -> rfc_path compat c (Some a)
| path_empty : forall x y z, rfc_oCFWS x -> rfc_oCFWS y -> rfc_oCFWS z ->
    rfc_path compat (x ++ bs "<" ++ y ++ bs ">" ++ z) None.
(* received-token = word / angle-addr / addr-spec / domain *)
Inductive rfc_received_token (compat : bool) : bytes -> received_token -> Prop :=
| token_word : forall c w, rfc_word c w -> rfc_received_token compat c (RWord w)
| token_angle : forall c a, rfc_angle_addr compat c a -> rfc_received_token compat c (RAddr a)
| token_addr : forall c a, rfc_addr_spec compat c a -> rfc_received_token compat c (RAddr a)
| token_domain : forall c d, rfc_domain compat c d -> rfc_received_token compat c (RDomain d).
Inductive rfc_received (compat : bool) : bytes -> list received_token * date_time_t -> Prop :=
| received_intro : forall c l c' d, many_of (rfc_received_token compat) c l -> rfc_date_value c' d ->
    rfc_received compat (c ++ bs ";" ++ c') (l, d).
Inductive rfc_resent (compat : bool) (EW : bytes -> bytes -> Prop) : bytes -> trace_field -> Prop :=
| resent_date : forall c d, rfc_header "Resent-Date" rfc_date_value c d -> rfc_resent compat EW c (TDate d)
| resent_from : forall c l, rfc_header "Resent-From" (rfc_mailbox_list compat EW) c l -> rfc_resent compat EW c (TFrom l)
| resent_sender : forall c m, rfc_header "Resent-Sender" (rfc_mailbox compat EW) c m -> rfc_resent compat EW c (TSender m)
| resent_to : forall c l, rfc_header "Resent-To" (rfc_address_list compat EW) c l -> rfc_resent compat EW c (TTo l)
| resent_cc : forall c l, rfc_header "Resent-Cc" (rfc_address_list compat EW) c l -> rfc_resent compat EW c (TCc l)
| resent_bcc : forall c l, rfc_header "Resent-Bcc" (rfc_bcc compat EW) c l -> rfc_resent compat EW c (TBcc l)
| resent_msg_id : forall c i, rfc_header "Resent-Message-ID" (rfc_msg_id compat) c i -> rfc_resent compat EW c (TMessageId i).
(* trace = [return] 1*received, then the resent block *)
Inductive rfc_return (compat : bool) : bytes -> option (option email_address) -> Prop :=
| return_none : rfc_return compat [] None
| return_some : forall c p, rfc_header "Return-Path" (rfc_path compat) c p -> rfc_return compat c (Some p).

(* ---- RFC 2045 ---- *)
(* token: printable ASCII except the tspecials *)
Definition mime_token_char (c : byte) : Prop := 33 <= c <= 126 /\ ~ In c (bs "()<>@,;:\/[]?=" ++ [34]).
Definition mime_token (c : bytes) : Prop := chars1 mime_token_char c.
(* what the crate allows between the value and the CRLF: *WSP [comment] *WSP *)
Inductive inline_cfws : bytes -> Prop :=
| inline_blank : forall w w', chars rfc_WSP w -> chars rfc_WSP w' -> inline_cfws (w ++ w')
| inline_comment : forall w c w', chars rfc_WSP w -> rfc_comment c -> chars rfc_WSP w' -> inline_cfws (w ++ c ++ w').
(* attribute names, RFC 2231 7: name, name*, name*index, name*index*  *)
Inductive rfc_index : bytes -> option N -> Prop :=
| index_none : rfc_index [] None
| index_some : forall c, chars1 rfc_DIGIT c -> number c < 256 -> rfc_index (bs "*" ++ c) (Some (number c)).
Inductive rfc_param_name : bytes -> bytes * option N * bool -> Prop :=
| param_name_indexed : forall a c i (e : bool), chars1 (fun x => mime_token_char x /\ x <> 42) a -> rfc_index c i ->
    rfc_param_name (a ++ c ++ (if e then bs "*" else [])) (map fold_case a, i, e)
| param_name_plain : forall a, mime_token a -> rfc_param_name a (map fold_case a, None, false).
Inductive rfc_param_value : bytes -> bytes -> Prop :=
| param_value_token : forall c, mime_token c -> rfc_param_value c c
| param_value_quoted : forall c v, rfc_quoted_string c v -> rfc_param_value c v.
Inductive rfc_param : bytes -> param -> Prop :=
| param_intro : forall w w' n a i e c v, rfc_oCFWS w -> rfc_oCFWS w' -> rfc_param_name n (a, i, e) ->
    rfc_param_value c v ->
    rfc_param (w ++ bs ";" ++ w' ++ n ++ bs "=" ++ c) (a, i, e, v).

(* the value of the parameters: RFC 2231 *)
(* the last element on which f is defined *)
Fixpoint last_some {A B} (f : A -> option B) (l : list A) : option B :=
  match l with
  | [] => None
  | x :: r => match last_some f r with Some b => Some b | None => f x end
  end.
(* the segment of index k, and the plain value, of parameter n; the last one written counts *)
Definition segment (raw : list param) (n : bytes) (k : N) : option (bool * bytes) :=
  last_some (fun '(n', i, e, v) => if bytes_eqb n n' then match i with Some k' => if k =? k' then Some (e, v) else None | None => None end else None) raw.
Definition plain_value (raw : list param) (n : bytes) : option bytes :=
  last_some (fun '(n', i, e, v) => if bytes_eqb n n' then match i with Some _ => None | None => Some v end else None) raw.
(* a percent-encoded text in a charset; left as it is if the charset is not known *)
Inductive ext_text (tc : charset_id -> bytes -> bytes) (cs : bytes) : bytes -> bytes -> Prop :=
| ext_known : forall t v, charset_decodes tc cs (rtl t) v -> ext_text tc cs t v
| ext_unknown : forall t, ~ In cs charset_names -> ext_text tc cs t t.
(* the first segment: charset'language'text if encoded *)
Inductive first_value (tc : charset_id -> bytes -> bytes) : bool * bytes -> bytes -> option bytes -> Prop :=
| first_raw : forall v, first_value tc (false, v) v None
| first_ext : forall cs lang t v, ~ In 39 cs -> ~ In 39 lang -> ext_text tc (map fold_case cs) t v ->
    first_value tc (true, cs ++ [39] ++ lang ++ [39] ++ t) v (Some (map fold_case cs)).
Inductive next_value (tc : charset_id -> bytes -> bytes) (cs : option bytes) : bool * bytes -> bytes -> Prop :=
| next_raw : forall v, next_value tc cs (false, v) v
| next_no_charset : forall v, cs = None -> next_value tc cs (true, v) v
| next_ext : forall c t v, cs = Some c -> ext_text tc c t v -> next_value tc cs (true, t) v.
Inductive tail_value (tc : charset_id -> bytes -> bytes) (seg : N -> option (bool * bytes)) (cs : option bytes) : N -> bytes -> Prop :=
| tail_end : forall k, seg k = None -> tail_value tc seg cs k []
| tail_more : forall k s v r, seg k = Some s -> next_value tc cs s v -> tail_value tc seg cs (k + 1) r ->
    tail_value tc seg cs k (v ++ r).
(* the value of parameter n: the segments 0, 1, 2, ... up to the first missing one, or the
   plain value *)
Inductive param_value (tc : charset_id -> bytes -> bytes) (raw : list param) (n : bytes) : option bytes -> Prop :=
| value_plain : segment raw n 0 = None -> param_value tc raw n (plain_value raw n)
| value_segments : forall s v cs r, segment raw n 0 = Some s -> first_value tc s v cs ->
    tail_value tc (segment raw n) cs 1 r -> param_value tc raw n (Some (v ++ r)).
Definition params_value (tc : charset_id -> bytes -> bytes) (raw : list param) (l : list (bytes * bytes)) : Prop :=
  forall n, param_value tc raw n (map_get l n).

(* a keyword in any case, or any other token *)
Inductive rfc_keyword {A} (table : list (bytes * A)) (other : bytes -> A) : bytes -> A -> Prop :=
| keyword_known : forall n c a, In (n, a) table -> same_nocase c n -> rfc_keyword table other c a
| keyword_other : forall c, mime_token c -> (forall n a, In (n, a) table -> ~ same_nocase c n) ->
    rfc_keyword table other c (other (map fold_case c)).
Definition mime_types : list (bytes * content_type_t) :=
  [(bs "text", CText); (bs "multipart", CMultipart); (bs "application", CApplication); (bs "image", CImage);
   (bs "video", CVideo); (bs "audio", CAudio); (bs "message", CMessage)].
Definition mime_encodings : list (bytes * encoding_t) :=
  [(bs "7bit", SevenBit); (bs "quoted-printable", QuotedPrintableEnc); (bs "base64", Base64Enc); (bs "8bit", HeightBit);
   (bs "binary", Binary)].
Definition mime_dispositions : list (bytes * disposition_type_t) := [(bs "inline", DInline); (bs "attachment", DAttachment)].

Inductive rfc_mime_version : bytes -> N * N -> Prop :=
| mime_version_intro : forall w c1 c2 x, rfc_oCFWS w -> chars1 rfc_DIGIT c1 -> chars1 rfc_DIGIT c2 ->
    number c1 < 256 -> number c2 < 256 -> inline_cfws x ->
    rfc_mime_version (w ++ c1 ++ bs "." ++ c2 ++ x) (number c1, number c2).
Inductive rfc_content_type (tc : charset_id -> bytes -> bytes) : bytes -> content_type_t * bytes * list (bytes * bytes) -> Prop :=
| content_type_intro : forall w c t s ps raw l x, rfc_oCFWS w -> rfc_keyword mime_types CUnknown c t -> mime_token s ->
    many_of rfc_param ps raw -> params_value tc raw l -> inline_cfws x ->
    rfc_content_type tc (w ++ c ++ bs "/" ++ s ++ ps ++ x) (t, map fold_case s, l).
Inductive rfc_encoding : bytes -> encoding_t -> Prop :=
| encoding_intro : forall w c e x, rfc_oCFWS w -> rfc_keyword mime_encodings UnknownEnc c e -> inline_cfws x ->
    rfc_encoding (w ++ c ++ x) e.

(* RFC 2183: the parameters filename and *-date are interpreted *)
Inductive rfc_disposition_item : bytes -> disposition_item -> Prop :=
| item_filename : forall w w' n c v, rfc_oCFWS w -> rfc_oCFWS w' -> same_nocase n (bs "filename") -> rfc_param_value c v ->
    rfc_disposition_item (w ++ bs ";" ++ w' ++ n ++ bs "=" ++ c) (DFilename v)
| item_creation : forall w w' n c d, rfc_oCFWS w -> rfc_oCFWS w' -> same_nocase n (bs "creation-date") -> rfc_date_value c d ->
    rfc_disposition_item (w ++ bs ";" ++ w' ++ n ++ [61; 34] ++ c ++ [34]) (DCreation d)
| item_modification : forall w w' n c d, rfc_oCFWS w -> rfc_oCFWS w' -> same_nocase n (bs "modification-date") -> rfc_date_value c d ->
    rfc_disposition_item (w ++ bs ";" ++ w' ++ n ++ [61; 34] ++ c ++ [34]) (DModification d)
| item_read : forall w w' n c d, rfc_oCFWS w -> rfc_oCFWS w' -> same_nocase n (bs "read-date") -> rfc_date_value c d ->
    rfc_disposition_item (w ++ bs ";" ++ w' ++ n ++ [61; 34] ++ c ++ [34]) (DRead d)
| item_param : forall c p, rfc_param c p -> rfc_disposition_item c (DParam p).
Definition params_of (l : list disposition_item) : list param :=
  concat (map (fun x => match x with DParam p => [p] | _ => [] end) l).
Inductive rfc_disposition (tc : charset_id -> bytes -> bytes) : bytes -> disposition_t -> Prop :=
| disposition_intro : forall w c k is items l x, rfc_oCFWS w -> rfc_keyword mime_dispositions DUnknown c k ->
    many_of rfc_disposition_item is items -> params_value tc (params_of items) l -> inline_cfws x ->
    rfc_disposition tc (w ++ c ++ is ++ x)
      {| disposition_type := k;
         disp_filename := last_some (fun i => match i with DFilename v => Some v | _ => None end) items;
         disp_creation_date := last_some (fun i => match i with DCreation v => Some v | _ => None end) items;
         disp_modification_date := last_some (fun i => match i with DModification v => Some v | _ => None end) items;
         disp_read_date := last_some (fun i => match i with DRead v => Some v | _ => None end) items;
         disp_unstructured := l |}.

(* ---- one header of any kind, in a build with the features of E ---- *)
(* an unrecognised header: any name, unstructured text *)
Inductive rfc_unknown (E : env) : bytes -> bytes * bytes -> Prop :=
| unknown_intro : forall n c v, chars1 rfc_ftext n -> rfc_text_value (f_unrecognized_headers E) (textcode E) c v ->
    rfc_unknown E (n ++ [58] ++ c ++ CRLF) (n, v).

Inductive field_text (E : env) : bytes -> field -> Prop :=
| text_date : forall c d, f_date E = true -> rfc_header "Date" rfc_date_value c d -> field_text E c (FDate d)
| text_from : forall c l, f_from E = true -> rfc_header "From" (rfc_mailbox_list (f_compatibility_fixes E) (encoded E)) c l -> field_text E c (FFrom l)
| text_sender : forall c m, f_sender E = true -> rfc_header "Sender" (rfc_mailbox (f_compatibility_fixes E) (encoded E)) c m -> field_text E c (FSender m)
| text_reply_to : forall c l, f_reply_to E = true -> rfc_header "Reply-To" (rfc_address_list (f_compatibility_fixes E) (encoded E)) c l -> field_text E c (FReplyTo l)
| text_to : forall c l, f_to E = true -> rfc_header "To" (rfc_address_list (f_compatibility_fixes E) (encoded E)) c l -> field_text E c (FTo l)
| text_cc : forall c l, f_cc E = true -> rfc_header "Cc" (rfc_address_list (f_compatibility_fixes E) (encoded E)) c l -> field_text E c (FCc l)
| text_bcc : forall c l, f_bcc E = true -> rfc_header "Bcc" (rfc_bcc (f_compatibility_fixes E) (encoded E)) c l -> field_text E c (FBcc l)
| text_message_id : forall c i, f_message_id E = true -> rfc_header "Message-ID" (rfc_msg_id (f_compatibility_fixes E)) c i -> field_text E c (FMessageId i)
| text_in_reply_to : forall c l, f_in_reply_to E = true -> rfc_header "In-Reply-To" (rfc_msg_ids (f_compatibility_fixes E)) c l -> field_text E c (FInReplyTo l)
| text_references : forall c l, f_references E = true -> rfc_header "References" (rfc_msg_ids (f_compatibility_fixes E)) c l -> field_text E c (FReferences l)
| text_subject : forall c s, f_subject E = true -> rfc_header "Subject" (rfc_text_value (f_mime E) (textcode E)) c s -> field_text E c (FSubject s)
| text_comments : forall c s, f_comments E = true -> rfc_header "Comments" (rfc_text_value (f_mime E) (textcode E)) c s -> field_text E c (FComments s)
| text_keywords : forall c l, f_keywords E = true -> rfc_header "Keywords" (comma_list (rfc_phrase (encoded E))) c l -> field_text E c (FKeywords l)
| text_mime_version : forall c x y, f_mime E = true -> rfc_header "MIME-Version" rfc_mime_version c (x, y) -> field_text E c (FMimeVersion x y)
| text_content_type : forall c t s p, f_mime E = true -> rfc_header "Content-Type" (rfc_content_type (textcode E)) c (t, s, p) -> field_text E c (FContentType t s p)
| text_encoding : forall c e, f_mime E = true -> rfc_header "Content-Transfer-Encoding" rfc_encoding c e -> field_text E c (FContentTransferEncoding e)
| text_content_id : forall c i, f_mime E = true -> rfc_header "Content-ID" (rfc_msg_id (f_compatibility_fixes E)) c i -> field_text E c (FContentId i)
| text_content_description : forall c s, f_mime E = true -> rfc_header "Content-Description" (mime_unstructured_text (textcode E)) c s -> field_text E c (FContentDescription s)
| text_content_disposition : forall c d, f_mime E = true -> rfc_header "Content-Disposition" (rfc_disposition (textcode E)) c d -> field_text E c (FContentDisposition d)
| text_trace : forall c1 p c2 r c3 l, f_trace E = true ->
    rfc_return (f_compatibility_fixes E) c1 p ->
    r <> [] -> many_of (rfc_header "Received" (rfc_received (f_compatibility_fixes E))) c2 r ->
    many_of (rfc_resent (f_compatibility_fixes E) (encoded E)) c3 l ->
    field_text E (c1 ++ c2 ++ c3) (FTrace p r l)
| text_unknown : forall c n v, rfc_unknown E c (n, v) -> field_text E c (FUnknown n v).

(* ---- messages ---- *)
(* the text after the headers: nothing, or an empty line and the body *)
Inductive rest_text : bytes -> option bytes -> Prop :=
| rest_none : rest_text [] None
| rest_body : forall b, rest_text (CRLF ++ b) (Some b).
Inductive message_text (E : env) : bytes -> list field -> option bytes -> Prop :=
| message_intro : forall c fs c' b, many_of (field_text E) c fs -> rest_text c' b -> message_text E (c ++ c') fs b.

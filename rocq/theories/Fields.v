(* parsing/fields.rs *)
From Verif Require Import Base Utf8 CharSets Combinators Whitespace QuotedString Common Time Address MimeFields.

(* fields.rs:8-17 *)
Inductive trace_field :=
| TDate (d : date_time_t)
| TFrom (l : list mailbox_t)
| TSender (m : mailbox_t)
| TTo (l : list address_t)
| TCc (l : list address_t)
| TBcc (l : list address_t)
| TMessageId (id : bytes * bytes).

(* fields.rs:530-535 *)
Inductive received_token :=
| RWord (w : bytes)
| RAddr (a : email_address)
| RDomain (d : bytes).

(* fields.rs:19-73 *)
Inductive field :=
| FDate (d : date_time_t)
| FFrom (l : list mailbox_t)
| FSender (m : mailbox_t)
| FReplyTo (l : list address_t)
| FTo (l : list address_t)
| FCc (l : list address_t)
| FBcc (l : list address_t)
| FMessageId (id : bytes * bytes)
| FInReplyTo (ids : list (bytes * bytes))
| FReferences (ids : list (bytes * bytes))
| FSubject (s : bytes)
| FComments (s : bytes)
| FKeywords (l : list (list bytes))
| FMimeVersion (major minor : N)
| FContentType (t : content_type_t) (subtype : bytes) (parameters : list (bytes * bytes))
| FContentTransferEncoding (e : encoding_t)
| FContentId (id : bytes * bytes)
| FContentDescription (d : bytes)
| FContentDisposition (d : disposition_t)
| FTrace (return_path : option (option email_address))
         (received : list (list received_token * date_time_t))
         (fields : list trace_field)
| FUnknown (name value : bytes).

(* The common shape of the structured header parsers: the name (any case), the
   value, CRLF. Each use below cites its function. *)
Definition header {A} (E : env) (e1 e2 : string) (name_err : string) (value : parser A) (end_err : string)
  : parser A := fun i =>
  let* (i, _) := tag_no_case E (bs e1) (bs e2) name_err i in
  let* (i, v) := value i in
  let* (i, _) := tag CRLF end_err i in
  Ok (i, v).

(* fields.rs:170-185 *)
Definition field_date (E : env) : parser date_time_t :=
  header E "Date:" "dATE:" "TAG NO CASE ERROR: Header name (Date) does not match."
    (date_time E) "TAG ERROR: A header (`Date` in this case) must end with a CRLF sequence.".
(* fields.rs:187-202 *)
Definition field_from (E : env) : parser (list mailbox_t) :=
  header E "From:" "fROM:" "TAG NO CASE ERROR: Header name (From) does not match."
    (mailbox_list E) "TAG ERROR: A header (`From` in this case) must end with a CRLF sequence.".
(* fields.rs:204-219 *)
Definition field_sender (E : env) : parser mailbox_t :=
  header E "Sender:" "sENDER:" "TAG NO CASE ERROR: Header name (Sender) does not match."
    (mailbox E) "TAG ERROR: A header (`Sender` in this case) must end with a CRLF sequence.".
(* fields.rs:221-236 *)
Definition field_reply_to (E : env) : parser (list address_t) :=
  header E "Reply-To:" "rEPLY-tO:" "TAG NO CASE ERROR: Header name (Reply-To) does not match."
    (address_list E) "TAG ERROR: A header (`Reply-To` in this case) must end with a CRLF sequence.".
(* fields.rs:238-253 *)
Definition field_to (E : env) : parser (list address_t) :=
  header E "To:" "tO:" "TAG NO CASE ERROR: Header name (To) does not match."
    (address_list E) "TAG ERROR: A header (`To` in this case) must end with a CRLF sequence.".
(* fields.rs:255-270 *)
Definition field_cc (E : env) : parser (list address_t) :=
  header E "Cc:" "cC:" "TAG NO CASE ERROR: Header name (Cc) does not match."
    (address_list E) "TAG ERROR: A header (`Cc` in this case) must end with a CRLF sequence.".
(* fields.rs:279-285 *)
Definition bcc_value (E : env) : parser (list address_t) := fun i =>
  attempt (address_list E i) (fun ra => Ok ra)
    (attempt (cfws i) (fun '(i, _) => Ok (i, []))
       (Err (Unknown "Invalid bcc field"))).
(* fields.rs:272-293 *)
Definition field_bcc (E : env) : parser (list address_t) :=
  header E "Bcc:" "bCC:" "TAG NO CASE ERROR: Header name (Bcc) does not match."
    (bcc_value E) "TAG ERROR: A header (`Bcc` in this case) must end with a CRLF sequence.".
(* fields.rs:295-310 *)
Definition field_message_id (E : env) : parser (bytes * bytes) :=
  header E "Message-ID:" "mESSAGE-id:" "TAG NO CASE ERROR: Header name (Message-ID) does not match."
    (message_id E) "TAG ERROR: A header (`Message-ID` in this case) must end with a CRLF sequence.".
(* fields.rs:312-327 *)
Definition field_in_reply_to (E : env) : parser (list (bytes * bytes)) :=
  header E "In-Reply-To:" "iN-rEPLY-tO:" "TAG NO CASE ERROR: Header name (Reply-To) does not match."
    (many1 (message_id E)) "TAG ERROR: A header (`In-Reply-To` in this case) must end with a CRLF sequence.".
(* fields.rs:329-344 *)
Definition field_references (E : env) : parser (list (bytes * bytes)) :=
  header E "References:" "rEFERENCES:" "TAG NO CASE ERROR: Header name (References) does not match."
    (many1 (message_id E)) "TAG ERROR: A header (`References` in this case) must end with a CRLF sequence.".

(* fields.rs:353-356, 373-376 *)
Definition text_value (E : env) : parser bytes :=
  if f_mime E then mime_unstructured E else unstructured.

(* fields.rs:346-364 *)
Definition field_subject (E : env) : parser bytes :=
  header E "Subject:" "sUBJECT:" "TAG NO CASE ERROR: Header name (Subject) does not match."
    (text_value E) "TAG ERROR: A header (`Subject` in this case) must end with a CRLF sequence.".
(* fields.rs:366-384 *)
Definition field_comments (E : env) : parser bytes :=
  header E "Comments:" "cOMMENTS:" "TAG NO CASE ERROR: Header name (Comments) does not match."
    (text_value E) "TAG ERROR: A header (`Comments` in this case) must end with a CRLF sequence.".
(* fields.rs:394-401 *)
Definition keywords_value (E : env) : parser (list (list bytes)) := fun i =>
  let* (i, k) := phrase E i in
  let* (i, l) := many (prefixed (phrase E) (bs ",")) i in
  Ok (i, k :: l).
(* fields.rs:386-410 *)
Definition field_keywords (E : env) : parser (list (list bytes)) :=
  header E "Keywords:" "kEYWORDS:" "TAG NO CASE ERROR: Header name (Keywords) does not match."
    (keywords_value E) "TAG ERROR: A header (`Keywords` in this case) must end with a CRLF sequence.".

(* fields.rs:412-494: `Resent-` followed by the plain header parser *)
Definition resent {A} (E : env) (name_err : string) (p : parser A) : parser A := fun i =>
  let* (i, _) := tag_no_case E (bs "Resent-") (bs "rESENT-") name_err i in
  p i.

(* fields.rs:83-94 with 412-494 *)
Definition resent_field (E : env) : parser trace_field :=
  match_parsers
    [ pmap TDate (resent E "TAG NO CASE ERROR: Header name (Resent-Date) does not match." (field_date E));
      pmap TFrom (resent E "TAG NO CASE ERROR: Header name (Resent-From) does not match." (field_from E));
      pmap TSender (resent E "TAG NO CASE ERROR: Header name (Resent-Sender) does not match." (field_sender E));
      pmap TTo (resent E "TAG NO CASE ERROR: Header name (Resent-To) does not match." (field_to E));
      pmap TCc (resent E "TAG NO CASE ERROR: Header name (Resent-Cc) does not match." (field_cc E));
      pmap TBcc (resent E "TAG NO CASE ERROR: Header name (Resent-Bcc) does not match." (field_bcc E));
      pmap TMessageId (resent E "TAG NO CASE ERROR: Header name (Resent-Message-ID) does not match." (field_message_id E)) ].

(* fields.rs:497-504 *)
Definition empty_path : parser unit := fun i =>
  let* (i, _) := optional cfws i in
  let* (i, _) := tag (bs "<") "TAG ERROR: An empty path must start with `<`." i in
  let* (i, _) := optional cfws i in
  let* (i, _) := tag (bs ">") "TAG ERROR: An empty path must end with `>`." i in
  let* (i, _) := optional cfws i in
  Ok (i, tt).

(* fields.rs:512-520 *)
Definition return_path_value (E : env) : parser (option email_address) :=
  match_parsers [ pmap Some (angle_addr E); pmap (fun _ : unit => None) empty_path ].

(* fields.rs:496-528 *)
Definition return_path (E : env) : parser (option email_address) :=
  header E "Return-Path:" "rETURN-pATH:" "TAG NO CASE ERROR: Header name (Return-Path) does not match."
    (return_path_value E) "TAG ERROR: A header (`Return-Path` in this case) must end with a CRLF sequence.".

(* fields.rs:544-561 *)
Definition received_token_parser (E : env) : parser received_token := fun i =>
  attempt (word i)
    (fun '(word_input, w) =>
       attempt (domain E i)
         (fun '(domain_input, d) =>
            if length w <? length d then Ok (domain_input, RDomain d) else Ok (word_input, RWord w))
         (Ok (word_input, RWord w)))
    (attempt (angle_addr E i) (fun '(i, a) => Ok (i, RAddr a))
       (attempt (addr_spec E i) (fun '(i, a) => Ok (i, RAddr a))
          (attempt (domain E i) (fun '(i, d) => Ok (i, RDomain d))
             (Err (Unknown "match error"))))).

(* fields.rs:544-567 *)
Definition received_value (E : env) : parser (list received_token * date_time_t) := fun i =>
  let* (i, tokens) := many (received_token_parser E) i in
  let* (i, _) := tag (bs ";") "TAG ERROR: Received tokens must be followed by a `;`." i in
  let* (i, d) := date_time E i in
  Ok (i, (tokens, d)).

(* fields.rs:537-575 *)
Definition received (E : env) : parser (list received_token * date_time_t) :=
  header E "Received:" "rECEIVED:" "TAG NO CASE ERROR: Header name (Received) does not match."
    (received_value E) "TAG ERROR: A header (`Received` in this case) must end with a CRLF sequence.".

(* fields.rs:577-587 *)
Definition trace (E : env) : parser (option (option email_address) * list (list received_token * date_time_t)) := fun i =>
  let* (i, rp) := optional (return_path E) i in
  let* (i, rc) := many1 (received E) i in
  Ok (i, (rp, rc)).

(* fields.rs:589-608 *)
Definition unknown (E : env) : parser (bytes * bytes) := fun i =>
  let* (i, name) := take_while1 is_ftext i in
  let* (i, _) := tag (bs ":") "TAG ERROR: A header name must be followed by a `:`." i in
  let* (i, value) := (if f_unrecognized_headers E then mime_unstructured E else unstructured) i in
  let* (i, _) := tag CRLF "TAG ERROR: A header must end with a CRLF sequence." i in
  Ok (i, (name, value)).

(* fields.rs:79-105: one trace block with its resent fields *)
Definition trace_block (E : env) : parser field := fun i =>
  let* (i, (rp, rc)) := trace E i in
  let* (i, l) := many (resent_field E) i in
  Ok (i, FTrace rp rc l).

(* #[cfg(feature = ...)] on an element of a parser array *)
Definition cfg {A} (b : bool) (p : parser A) : list (parser A) := if b then [p] else [].

(* fields.rs:110-161 *)
Definition field_parsers (E : env) : list (parser field) :=
  cfg (f_date E) (pmap FDate (field_date E)) ++
  cfg (f_from E) (pmap FFrom (field_from E)) ++
  cfg (f_sender E) (pmap FSender (field_sender E)) ++
  cfg (f_reply_to E) (pmap FReplyTo (field_reply_to E)) ++
  cfg (f_to E) (pmap FTo (field_to E)) ++
  cfg (f_cc E) (pmap FCc (field_cc E)) ++
  cfg (f_bcc E) (pmap FBcc (field_bcc E)) ++
  cfg (f_message_id E) (pmap FMessageId (field_message_id E)) ++
  cfg (f_in_reply_to E) (pmap FInReplyTo (field_in_reply_to E)) ++
  cfg (f_references E) (pmap FReferences (field_references E)) ++
  cfg (f_subject E) (pmap FSubject (field_subject E)) ++
  cfg (f_comments E) (pmap FComments (field_comments E)) ++
  cfg (f_mime E) (pmap (fun '(a, b) => FMimeVersion a b) (mime_version E)) ++
  cfg (f_mime E) (pmap (fun '(t, s, p) => FContentType t s p) (content_type E)) ++
  cfg (f_mime E) (pmap FContentTransferEncoding (content_transfer_encoding E)) ++
  cfg (f_mime E) (pmap FContentId (content_id E)) ++
  cfg (f_mime E) (pmap FContentDescription (content_description E)) ++
  cfg (f_mime E) (pmap FContentDisposition (content_disposition E)) ++
  cfg (f_keywords E) (pmap FKeywords (field_keywords E)) ++
  [ pmap (fun '(n, v) => FUnknown n v) (unknown E) ].

(* fields.rs:108-162 *)
Definition any_field (E : env) : parser field := match_parsers (field_parsers E).

(* fields.rs:75-168 *)
Definition fields (E : env) : parser (list field) := fun i =>
  let* (i, t) := if f_trace E then many (trace_block E) i else Ok (i, []) in
  let* (i, l) := many (any_field E) i in
  Ok (i, t ++ l).

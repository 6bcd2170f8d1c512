(* Specification for C58: what a header of a mail makes of the email. *)
From Verif Require Import Base Time Address MimeFields Fields Entity Email Rfc5322 RfcFields CompleteFields EmailSpec ParamSpec Writers.
Local Open Scope N_scope.

(* the email has the value of the header; trace headers are treated in C40, the version of MIME is
   not kept, and what an encoding does is [decoded_as] below *)
Definition shown (f : field) (e : email) : Prop :=
  match f with
  | FFrom l => from e = l
  | FSender m => sender e = Some m
  | FSubject s => subject e = Some s
  | FDate d => date_of e = Some d
  | FTo l => to e = Some l
  | FCc l => cc e = Some l
  | FBcc l => bcc e = Some l
  | FMessageId i => message_id_of e = Some i
  | FInReplyTo l => in_reply_to e = Some l
  | FReferences l => references e = Some l
  | FReplyTo l => reply_to e = Some l
  | FComments s => In s (comments e)
  | FKeywords l => exists a b, keywords e = a ++ l ++ b
  | FTrace _ _ _ => False
  | FMimeVersion _ _ => True
  | FContentType t s p => exists r, mime_entity e = Some r /\ e_mime_type r = t /\ e_subtype r = s /\ same_map p (e_parameters r)
  | FContentTransferEncoding _ => True
  | FContentId i => exists r, mime_entity e = Some r /\ e_id r = Some i
  | FContentDescription s => exists r, mime_entity e = Some r /\ e_description r = Some s
  | FContentDisposition d => exists r d', mime_entity e = Some r /\ e_disposition r = Some d' /\ same_disposition_t d d'
  | FUnknown n v => In (n, v) (unknown_fields e)
  end.

(* headers that need not be there *)
Definition addable (f : field) (e : email) : Prop :=
  match f with
  | FSubject _ => subject e = None
  | FTo _ => to e = None
  | FCc _ => cc e = None
  | FBcc _ => bcc e = None
  | FMessageId _ => message_id_of e = None
  | FInReplyTo _ => in_reply_to e = None
  | FReferences _ => references e = None
  | FReplyTo _ => reply_to e = None
  | FComments _ | FKeywords _ | FUnknown _ _ => True
  | _ => False
  end.
Definition removable (f : field) : Prop :=
  match f with
  | FSubject _ | FTo _ | FCc _ | FBcc _ | FMessageId _ | FInReplyTo _ | FReferences _ | FReplyTo _ | FComments _ | FKeywords _ | FUnknown _ _ => True
  | _ => False
  end.
(* [e'] is [e] with the header added, nothing else is changed *)
Definition added {A} (x : option A) (a b : option A) : Prop := match x with Some v => a = None /\ b = Some v | None => b = a end.
Definition inserted {A} (x : list A) (a b : list A) : Prop := exists a1 a2, a = a1 ++ a2 /\ b = a1 ++ x ++ a2.
Record grown (f : field) (e e' : email) : Prop := {
  grown_body : body_of e' = body_of e;
  grown_from : from e' = from e;
  grown_sender : sender e' = sender e;
  grown_date : date_of e' = date_of e;
  grown_trace : trace_of e' = trace_of e;
  grown_mime : mime_entity e' = mime_entity e;
  grown_subject : added (is_subject f) (subject e) (subject e');
  grown_to : added (is_to f) (to e) (to e');
  grown_cc : added (is_cc f) (cc e) (cc e');
  grown_bcc : added (is_bcc f) (bcc e) (bcc e');
  grown_message_id : added (is_message_id f) (message_id_of e) (message_id_of e');
  grown_in_reply_to : added (is_in_reply_to f) (in_reply_to e) (in_reply_to e');
  grown_references : added (is_references f) (references e) (references e');
  grown_reply_to : added (is_reply_to f) (reply_to e) (reply_to e');
  grown_comments : inserted (match is_comments f with Some s => [s] | None => [] end) (comments e) (comments e');
  grown_keywords : inserted (match is_keywords f with Some l => l | None => [] end) (keywords e) (keywords e');
  grown_unknown : inserted (match is_unknown f with Some x => [x] | None => [] end) (unknown_fields e) (unknown_fields e')
}.

(* headers as programs write them, by their names: the text after the colon and the value *)
Inductive written_field (E : env) : string -> bytes -> field -> Prop :=
| written_date_field : forall c d, f_date E = true -> written_date c d -> date_in_range d -> written_field E "Date" (bs " " ++ c) (FDate d)
| written_from_field : forall c l, f_from E = true -> written_list written_mailbox c l -> written_field E "From" (bs " " ++ c) (FFrom l)
| written_sender_field : forall c m, f_sender E = true -> written_mailbox c m -> written_field E "Sender" (bs " " ++ c) (FSender m)
| written_reply_to_field : forall c l, f_reply_to E = true -> written_list written_recipient c l -> written_field E "Reply-To" (bs " " ++ c) (FReplyTo l)
| written_to_field : forall c l, f_to E = true -> written_list written_recipient c l -> written_field E "To" (bs " " ++ c) (FTo l)
| written_cc_field : forall c l, f_cc E = true -> written_list written_recipient c l -> written_field E "Cc" (bs " " ++ c) (FCc l)
| written_bcc_field : forall c l, f_bcc E = true -> written_list written_recipient c l -> written_field E "Bcc" (bs " " ++ c) (FBcc l)
| written_message_id_field : forall c i, f_message_id E = true -> written_id c i -> written_field E "Message-ID" (bs " " ++ c) (FMessageId i)
| written_in_reply_to_field : forall c l, f_in_reply_to E = true -> written_ids c l -> written_field E "In-Reply-To" (bs " " ++ c) (FInReplyTo l)
| written_references_field : forall c l, f_references E = true -> written_ids c l -> written_field E "References" (bs " " ++ c) (FReferences l)
| written_keywords_field : forall c l, f_keywords E = true -> written_keywords c l -> written_field E "Keywords" (bs " " ++ c) (FKeywords l)
| written_subject_field : forall c v, f_subject E = true -> (f_mime E = true -> no_encoded c) -> unfolded c v -> written_field E "Subject" c (FSubject v)
| written_comments_field : forall c v, f_comments E = true -> (f_mime E = true -> no_encoded c) -> unfolded c v -> written_field E "Comments" c (FComments v)
| written_content_type_field : forall c t s ps raw l, f_mime E = true -> clear_keyword mime_types CUnknown c t -> mime_token s -> many_of written_param ps raw ->
    (forall n, stands_for (most_segments E) raw n (map_get l n)) -> written_field E "Content-Type" (bs " " ++ c ++ bs "/" ++ s ++ ps) (FContentType t (map fold_case s) l)
| written_encoding_field : forall c enc, f_mime E = true -> clear_keyword mime_encodings UnknownEnc c enc -> written_field E "Content-Transfer-Encoding" (bs " " ++ c) (FContentTransferEncoding enc).

(* Specification for C42: a build with fewer header features, and what becomes of a message
   when it is read by it. *)
From Verif Require Import Base Time Address MimeFields Fields Message Entity Email Rfc5322 RfcFields EmailSpec.

(* the feature that interprets a field *)
Definition feature (E : env) (f : field) : bool :=
  match f with
  | FDate _ => f_date E | FFrom _ => f_from E | FSender _ => f_sender E | FReplyTo _ => f_reply_to E | FTo _ => f_to E | FCc _ => f_cc E
  | FBcc _ => f_bcc E | FMessageId _ => f_message_id E | FInReplyTo _ => f_in_reply_to E | FReferences _ => f_references E
  | FSubject _ => f_subject E | FComments _ => f_comments E | FKeywords _ => f_keywords E | FTrace _ _ _ => f_trace E
  | FMimeVersion _ _ | FContentType _ _ _ | FContentTransferEncoding _ | FContentId _ | FContentDescription _ | FContentDisposition _ => f_mime E
  | FUnknown _ _ => true
  end.

(* E' is E without some of the header features *)
Record fewer (E' E : env) : Prop := {
  fewer_from : f_from E' = true -> f_from E = true; fewer_sender : f_sender E' = true -> f_sender E = true;
  fewer_subject : f_subject E' = true -> f_subject E = true; fewer_date : f_date E' = true -> f_date E = true;
  fewer_to : f_to E' = true -> f_to E = true; fewer_cc : f_cc E' = true -> f_cc E = true; fewer_bcc : f_bcc E' = true -> f_bcc E = true;
  fewer_message_id : f_message_id E' = true -> f_message_id E = true; fewer_in_reply_to : f_in_reply_to E' = true -> f_in_reply_to E = true;
  fewer_references : f_references E' = true -> f_references E = true; fewer_reply_to : f_reply_to E' = true -> f_reply_to E = true;
  fewer_comments : f_comments E' = true -> f_comments E = true; fewer_keywords : f_keywords E' = true -> f_keywords E = true;
  fewer_trace : f_trace E' = true -> f_trace E = true;
  fewer_mime : f_mime E' = f_mime E; fewer_unrecognized : f_unrecognized_headers E' = f_unrecognized_headers E;
  fewer_compat : f_compatibility_fixes E' = f_compatibility_fixes E; fewer_debug : debug E' = debug E;
  fewer_textcode : textcode E' = textcode E; fewer_hash : hash_order E' = hash_order E
}.

(* the header text c, with the fields fs of E and fs' of E': a field whose feature is still
   there stays what it was, the lines of another one are unknown headers *)
Definition unknown_line (E : env) (c : bytes) (f : field) : Prop := exists n v, f = FUnknown n v /\ rfc_unknown E c (n, v).
Inductive demoted (E E' : env) : bytes -> list field -> list field -> Prop :=
| demoted_nil : demoted E E' [] [] []
| demoted_kept : forall c f cs fs fs', field_text E c f -> feature E' f = true -> demoted E E' cs fs fs' -> demoted E E' (c ++ cs) (f :: fs) (f :: fs')
| demoted_lost : forall c f l cs fs fs', field_text E c f -> feature E' f = false -> many_of (unknown_line E') c l -> l <> [] -> demoted E E' cs fs fs' ->
    demoted E E' (c ++ cs) (f :: fs) (l ++ fs').

(* xs occurs in ys, in that order *)
Inductive subsequence {A} : list A -> list A -> Prop :=
| sub_nil : forall l, subsequence [] l
| sub_take : forall a xs ys, subsequence xs ys -> subsequence (a :: xs) (a :: ys)
| sub_skip : forall a xs ys, subsequence xs ys -> subsequence xs (a :: ys).
(* what is kept in the email: a component whose feature is there is the same, otherwise it is empty *)
Record poorer (E' : env) (e e' : email) : Prop := {
  po_from : from e' = if f_from E' then from e else []; po_sender : sender e' = if f_sender E' then sender e else None;
  po_subject : subject e' = if f_subject E' then subject e else None; po_date : date_of e' = if f_date E' then date_of e else None;
  po_to : to e' = if f_to E' then to e else None; po_cc : cc e' = if f_cc E' then cc e else None; po_bcc : bcc e' = if f_bcc E' then bcc e else None;
  po_message_id : message_id_of e' = if f_message_id E' then message_id_of e else None;
  po_in_reply_to : in_reply_to e' = if f_in_reply_to E' then in_reply_to e else None;
  po_references : references e' = if f_references E' then references e else None;
  po_reply_to : reply_to e' = if f_reply_to E' then reply_to e else None;
  po_comments : comments e' = if f_comments E' then comments e else []; po_keywords : keywords e' = if f_keywords E' then keywords e else [];
  po_trace : trace_of e' = if f_trace E' then trace_of e else [];
  po_body : body_of e' = body_of e; po_mime : mime_entity e' = mime_entity e;
  po_unknown : subsequence (unknown_fields e) (unknown_fields e')
}.

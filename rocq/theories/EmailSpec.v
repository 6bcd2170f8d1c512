(* Specification of Email::parse on top of RfcFields.v: which bodies are acceptable (RFC 5322
   2.1.1, 2.3), what a transfer encoding stands for, and what the email of a list of header
   fields and a body is. *)
From Verif Require Import Base Utf8 Time Address MimeFields Fields Entity Email Rfc5322 CodecSpec RfcFields.

(* ---- bodies ---- *)
(* lines of at most 998 characters, separated by CRLF; no CR or LF inside a line *)
Definition body_line (l : bytes) : Prop := length l <= 998 /\ chars rfc_text l.
Definition body_text (b : bytes) : Prop := Forall body_line (lines_of b).

Inductive transfer_decoded : encoding_t -> bytes -> bytes -> Prop :=
| transfer_7bit : forall b, transfer_decoded SevenBit b b
| transfer_8bit : forall b, transfer_decoded HeightBit b b
| transfer_binary : forall b, transfer_decoded Binary b b
| transfer_base64 : forall b v, b64_decoding b = Some v -> transfer_decoded Base64Enc b v
| transfer_qp : forall b, transfer_decoded QuotedPrintableEnc b (qp_decoding b).

(* ---- the fields of an email ---- *)
(* the values selected from a list of fields, in order; the first of them *)
Definition opt_list {A} (o : option A) : list A := match o with Some a => [a] | None => [] end.
Definition pick {A} (sel : field -> option A) (fs : list field) : list A := concat (map (fun f => opt_list (sel f)) fs).
Definition only {A} (sel : field -> option A) (fs : list field) : option A := hd_error (pick sel fs).

(* the headers that may appear at most once, under the name used in error messages *)
Definition singular (f : field) : option string :=
  match f with
  | FFrom _ => Some "From" | FSender _ => Some "Sender" | FSubject _ => Some "Subject" | FDate _ => Some "Date"
  | FTo _ => Some "To" | FCc _ => Some "Cc" | FBcc _ => Some "Bcc" | FMessageId _ => Some "Message-ID"
  | FInReplyTo _ => Some "In-Reply-To" | FReferences _ => Some "References" | FReplyTo _ => Some "Reply-To"
  | FMimeVersion _ _ => Some "Mime-Version" | FContentType _ _ _ => Some "Content-Type"
  | FContentTransferEncoding _ => Some "Content-Transfer-Encoding" | FContentId _ => Some "Content-Id"
  | FContentDescription _ => Some "Content-Description" | FContentDisposition _ => Some "Content-Disposition"
  | FComments _ | FKeywords _ | FTrace _ _ _ | FUnknown _ _ => None
  end%string.

Definition is_from f := match f with FFrom x => Some x | _ => None end.
Definition is_sender f := match f with FSender x => Some x | _ => None end.
Definition is_subject f := match f with FSubject x => Some x | _ => None end.
Definition is_date f := match f with FDate x => Some x | _ => None end.
Definition is_to f := match f with FTo x => Some x | _ => None end.
Definition is_cc f := match f with FCc x => Some x | _ => None end.
Definition is_bcc f := match f with FBcc x => Some x | _ => None end.
Definition is_message_id f := match f with FMessageId x => Some x | _ => None end.
Definition is_in_reply_to f := match f with FInReplyTo x => Some x | _ => None end.
Definition is_references f := match f with FReferences x => Some x | _ => None end.
Definition is_reply_to f := match f with FReplyTo x => Some x | _ => None end.
Definition is_comments f := match f with FComments x => Some x | _ => None end.
Definition is_keywords f := match f with FKeywords x => Some x | _ => None end.
Definition is_trace f := match f with FTrace p r l => Some (p, r, l) | _ => None end.
Definition is_mime_version f := match f with FMimeVersion x y => Some (x, y) | _ => None end.
Definition is_content_type f := match f with FContentType t s p => Some (t, s, p) | _ => None end.
Definition is_cte f := match f with FContentTransferEncoding x => Some x | _ => None end.
Definition is_content_id f := match f with FContentId x => Some x | _ => None end.
Definition is_content_description f := match f with FContentDescription x => Some x | _ => None end.
Definition is_content_disposition f := match f with FContentDisposition x => Some x | _ => None end.
Definition is_unknown f := match f with FUnknown n v => Some (n, v) | _ => None end.

(* RFC 2045 5.2, 6.1: the defaults *)
Definition type_of (o : option (content_type_t * bytes * list (bytes * bytes))) :=
  match o with Some x => x | None => (CText, bs "plain", [(bs "charset", bs "us-ascii")]) end.
Definition encoding_of (o : option encoding_t) : encoding_t := match o with Some e => e | None => SevenBit end.

(* the sender: the Sender header, else the only author *)
Definition sender_of (s : option mailbox_t) (authors : list mailbox_t) : option mailbox_t :=
  match s, authors with
  | Some m, _ => Some m
  | None, [m] => Some m
  | None, _ => None
  end.
Definition authors (fs : list field) : list mailbox_t := match only is_from fs with Some l => l | None => [] end.

Record email_of (E : env) (fs : list field) (b : option bytes) (e : email) : Prop := {
  of_unique : NoDup (pick singular fs);
  of_from : if f_from E then only is_from fs = Some (from e) else from e = [];
  of_date : if f_date E then only is_date fs = date_of e /\ date_of e <> None else date_of e = None;
  of_sender : if f_sender E then sender e = sender_of (only is_sender fs) (from e) /\ sender e <> None else sender e = None;
  of_subject : subject e = only is_subject fs;
  of_to : to e = only is_to fs;
  of_cc : cc e = only is_cc fs;
  of_bcc : bcc e = only is_bcc fs;
  of_message_id : message_id_of e = only is_message_id fs;
  of_in_reply_to : in_reply_to e = only is_in_reply_to fs;
  of_references : references e = only is_references fs;
  of_reply_to : reply_to e = only is_reply_to fs;
  of_comments : comments e = pick is_comments fs;
  of_keywords : keywords e = concat (pick is_keywords fs);
  of_trace : trace_of e = pick is_trace fs;
  of_unknown : unknown_fields e = pick is_unknown fs;
  of_body : body_of e = if f_mime E then None else b;
  of_mime : if f_mime E then
      exists v, match b with Some b => transfer_decoded (encoding_of (only is_cte fs)) b v | None => v = [] end /\
      mime_entity e = Some {| e_mime_type := fst (fst (type_of (only is_content_type fs)));
                              e_subtype := snd (fst (type_of (only is_content_type fs)));
                              e_description := only is_content_description fs;
                              e_id := only is_content_id fs;
                              e_parameters := snd (type_of (only is_content_type fs));
                              e_disposition := only is_content_disposition fs;
                              e_value := v; e_additional_headers := [] |}
    else mime_entity e = None
}.

(* n is the name of the first singular header that repeats an earlier one *)
Definition first_repeat (fs : list field) (n : string) : Prop :=
  exists pre f post, fs = pre ++ f :: post /\ singular f = Some n /\ In n (pick singular pre) /\ NoDup (pick singular pre).

(* why there is no email *)
Inductive email_error (E : env) (fs : list field) (b : option bytes) : error -> Prop :=
| error_duplicate : forall n, first_repeat fs n -> email_error E fs b (DuplicateHeader n)
| error_from : NoDup (pick singular fs) -> f_from E = true -> pick is_from fs = [] ->
    email_error E fs b (MissingHeader "From")
| error_date : NoDup (pick singular fs) -> f_date E = true -> pick is_date fs = [] ->
    (f_from E = true -> pick is_from fs <> []) ->
    email_error E fs b (MissingHeader "Date")
| error_sender : NoDup (pick singular fs) -> f_sender E = true -> pick is_sender fs = [] ->
    (forall m, (if f_from E then authors fs else []) <> [m]) ->
    (f_from E = true -> pick is_from fs <> []) -> (f_date E = true -> pick is_date fs <> []) ->
    email_error E fs b (MissingHeader "Sender")
| error_encoding : forall t w, NoDup (pick singular fs) -> f_mime E = true -> b = Some t ->
    (forall v, ~ transfer_decoded (encoding_of (only is_cte fs)) t v) ->
    (f_from E = true -> pick is_from fs <> []) -> (f_date E = true -> pick is_date fs <> []) ->
    (f_sender E = true -> sender_of (only is_sender fs) (if f_from E then authors fs else []) <> None) ->
    email_error E fs b (Unknown w).

(* ---- all the dates of an email ---- *)
Definition disposition_dates (d : disposition_t) : list date_time_t :=
  opt_list (disp_creation_date d) ++ opt_list (disp_modification_date d) ++ opt_list (disp_read_date d).
Definition resent_dates (t : trace_field) : list date_time_t := match t with TDate d => [d] | _ => [] end.
Definition trace_dates (t : option (option email_address) * list (list received_token * date_time_t) * list trace_field) : list date_time_t :=
  let '(_, received, resent) := t in map snd received ++ concat (map resent_dates resent).
Definition email_dates (e : email) : list date_time_t :=
  opt_list (date_of e) ++ concat (map trace_dates (trace_of e)) ++
  match mime_entity e with Some r => match e_disposition r with Some d => disposition_dates d | None => [] end | None => [] end.

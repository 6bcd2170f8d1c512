(* email.rs *)
From Verif Require Import Base Combinators Time Address MimeFields Fields Message Entity.

(* email.rs:28-94. A field whose feature is disabled does not exist in the struct;
   here it holds its empty value. `from`, `sender` and `date` are mandatory when
   enabled, hence options here. [body] exists only without mime, [mime_entity] only
   with mime. *)
Record email := {
  body_of : option bytes;
  from : list mailbox_t;
  sender : option mailbox_t;
  subject : option bytes;
  date_of : option date_time_t;
  to : option (list address_t);
  cc : option (list address_t);
  bcc : option (list address_t);
  message_id_of : option (bytes * bytes);
  in_reply_to : option (list (bytes * bytes));
  references : option (list (bytes * bytes));
  reply_to : option (list address_t);
  comments : list bytes;
  keywords : list (list bytes);
  trace_of : list (option (option email_address) * list (list received_token * date_time_t) * list trace_field);
  mime_entity : option raw_entity_t;
  unknown_fields : list (bytes * bytes)
}.

(* email.rs:101-142: the local variables of `parse` *)
Record acc := {
  v_from : option (list mailbox_t);
  v_sender : option mailbox_t;
  v_subject : option bytes;
  v_date : option date_time_t;
  v_to : option (list address_t);
  v_cc : option (list address_t);
  v_bcc : option (list address_t);
  v_message_id : option (bytes * bytes);
  v_in_reply_to : option (list (bytes * bytes));
  v_references : option (list (bytes * bytes));
  v_reply_to : option (list address_t);
  v_comments : list bytes;
  v_keywords : list (list bytes);
  v_trace : list (option (option email_address) * list (list received_token * date_time_t) * list trace_field);
  v_mime_version : option (N * N);
  v_content_type : option (content_type_t * bytes * list (bytes * bytes));
  v_cte : option encoding_t;
  v_content_id : option (bytes * bytes);
  v_content_description : option bytes;
  v_content_disposition : option disposition_t;
  v_unknown : list (bytes * bytes)
}.

Definition acc0 : acc :=
  {| v_from := None; v_sender := None; v_subject := None; v_date := None; v_to := None; v_cc := None;
     v_bcc := None; v_message_id := None; v_in_reply_to := None; v_references := None; v_reply_to := None;
     v_comments := []; v_keywords := []; v_trace := []; v_mime_version := None; v_content_type := None;
     v_cte := None; v_content_id := None; v_content_description := None; v_content_disposition := None;
     v_unknown := [] |}.

(* `if x.is_none() { x = Some(v) } else { return Err(DuplicateHeader(name)) }` *)
Definition set_once {A} (cur : option A) (v : A) (name : string) : res (option A) :=
  match cur with
  | None => Ok (Some v)
  | Some _ => Err (DuplicateHeader name)
  end.

(* assignment to one of the local variables *)
Definition set_from a x : acc :=
  {| v_from := x; v_sender := v_sender a; v_subject := v_subject a; v_date := v_date a; v_to := v_to a; v_cc := v_cc a; v_bcc := v_bcc a; v_message_id := v_message_id a; v_in_reply_to := v_in_reply_to a; v_references := v_references a; v_reply_to := v_reply_to a; v_comments := v_comments a; v_keywords := v_keywords a; v_trace := v_trace a; v_mime_version := v_mime_version a; v_content_type := v_content_type a; v_cte := v_cte a; v_content_id := v_content_id a; v_content_description := v_content_description a; v_content_disposition := v_content_disposition a; v_unknown := v_unknown a |}.
Definition set_sender a x : acc :=
  {| v_from := v_from a; v_sender := x; v_subject := v_subject a; v_date := v_date a; v_to := v_to a; v_cc := v_cc a; v_bcc := v_bcc a; v_message_id := v_message_id a; v_in_reply_to := v_in_reply_to a; v_references := v_references a; v_reply_to := v_reply_to a; v_comments := v_comments a; v_keywords := v_keywords a; v_trace := v_trace a; v_mime_version := v_mime_version a; v_content_type := v_content_type a; v_cte := v_cte a; v_content_id := v_content_id a; v_content_description := v_content_description a; v_content_disposition := v_content_disposition a; v_unknown := v_unknown a |}.
Definition set_subject a x : acc :=
  {| v_from := v_from a; v_sender := v_sender a; v_subject := x; v_date := v_date a; v_to := v_to a; v_cc := v_cc a; v_bcc := v_bcc a; v_message_id := v_message_id a; v_in_reply_to := v_in_reply_to a; v_references := v_references a; v_reply_to := v_reply_to a; v_comments := v_comments a; v_keywords := v_keywords a; v_trace := v_trace a; v_mime_version := v_mime_version a; v_content_type := v_content_type a; v_cte := v_cte a; v_content_id := v_content_id a; v_content_description := v_content_description a; v_content_disposition := v_content_disposition a; v_unknown := v_unknown a |}.
Definition set_date a x : acc :=
  {| v_from := v_from a; v_sender := v_sender a; v_subject := v_subject a; v_date := x; v_to := v_to a; v_cc := v_cc a; v_bcc := v_bcc a; v_message_id := v_message_id a; v_in_reply_to := v_in_reply_to a; v_references := v_references a; v_reply_to := v_reply_to a; v_comments := v_comments a; v_keywords := v_keywords a; v_trace := v_trace a; v_mime_version := v_mime_version a; v_content_type := v_content_type a; v_cte := v_cte a; v_content_id := v_content_id a; v_content_description := v_content_description a; v_content_disposition := v_content_disposition a; v_unknown := v_unknown a |}.
Definition set_to a x : acc :=
  {| v_from := v_from a; v_sender := v_sender a; v_subject := v_subject a; v_date := v_date a; v_to := x; v_cc := v_cc a; v_bcc := v_bcc a; v_message_id := v_message_id a; v_in_reply_to := v_in_reply_to a; v_references := v_references a; v_reply_to := v_reply_to a; v_comments := v_comments a; v_keywords := v_keywords a; v_trace := v_trace a; v_mime_version := v_mime_version a; v_content_type := v_content_type a; v_cte := v_cte a; v_content_id := v_content_id a; v_content_description := v_content_description a; v_content_disposition := v_content_disposition a; v_unknown := v_unknown a |}.
Definition set_cc a x : acc :=
  {| v_from := v_from a; v_sender := v_sender a; v_subject := v_subject a; v_date := v_date a; v_to := v_to a; v_cc := x; v_bcc := v_bcc a; v_message_id := v_message_id a; v_in_reply_to := v_in_reply_to a; v_references := v_references a; v_reply_to := v_reply_to a; v_comments := v_comments a; v_keywords := v_keywords a; v_trace := v_trace a; v_mime_version := v_mime_version a; v_content_type := v_content_type a; v_cte := v_cte a; v_content_id := v_content_id a; v_content_description := v_content_description a; v_content_disposition := v_content_disposition a; v_unknown := v_unknown a |}.
Definition set_bcc a x : acc :=
  {| v_from := v_from a; v_sender := v_sender a; v_subject := v_subject a; v_date := v_date a; v_to := v_to a; v_cc := v_cc a; v_bcc := x; v_message_id := v_message_id a; v_in_reply_to := v_in_reply_to a; v_references := v_references a; v_reply_to := v_reply_to a; v_comments := v_comments a; v_keywords := v_keywords a; v_trace := v_trace a; v_mime_version := v_mime_version a; v_content_type := v_content_type a; v_cte := v_cte a; v_content_id := v_content_id a; v_content_description := v_content_description a; v_content_disposition := v_content_disposition a; v_unknown := v_unknown a |}.
Definition set_message_id a x : acc :=
  {| v_from := v_from a; v_sender := v_sender a; v_subject := v_subject a; v_date := v_date a; v_to := v_to a; v_cc := v_cc a; v_bcc := v_bcc a; v_message_id := x; v_in_reply_to := v_in_reply_to a; v_references := v_references a; v_reply_to := v_reply_to a; v_comments := v_comments a; v_keywords := v_keywords a; v_trace := v_trace a; v_mime_version := v_mime_version a; v_content_type := v_content_type a; v_cte := v_cte a; v_content_id := v_content_id a; v_content_description := v_content_description a; v_content_disposition := v_content_disposition a; v_unknown := v_unknown a |}.
Definition set_in_reply_to a x : acc :=
  {| v_from := v_from a; v_sender := v_sender a; v_subject := v_subject a; v_date := v_date a; v_to := v_to a; v_cc := v_cc a; v_bcc := v_bcc a; v_message_id := v_message_id a; v_in_reply_to := x; v_references := v_references a; v_reply_to := v_reply_to a; v_comments := v_comments a; v_keywords := v_keywords a; v_trace := v_trace a; v_mime_version := v_mime_version a; v_content_type := v_content_type a; v_cte := v_cte a; v_content_id := v_content_id a; v_content_description := v_content_description a; v_content_disposition := v_content_disposition a; v_unknown := v_unknown a |}.
Definition set_references a x : acc :=
  {| v_from := v_from a; v_sender := v_sender a; v_subject := v_subject a; v_date := v_date a; v_to := v_to a; v_cc := v_cc a; v_bcc := v_bcc a; v_message_id := v_message_id a; v_in_reply_to := v_in_reply_to a; v_references := x; v_reply_to := v_reply_to a; v_comments := v_comments a; v_keywords := v_keywords a; v_trace := v_trace a; v_mime_version := v_mime_version a; v_content_type := v_content_type a; v_cte := v_cte a; v_content_id := v_content_id a; v_content_description := v_content_description a; v_content_disposition := v_content_disposition a; v_unknown := v_unknown a |}.
Definition set_reply_to a x : acc :=
  {| v_from := v_from a; v_sender := v_sender a; v_subject := v_subject a; v_date := v_date a; v_to := v_to a; v_cc := v_cc a; v_bcc := v_bcc a; v_message_id := v_message_id a; v_in_reply_to := v_in_reply_to a; v_references := v_references a; v_reply_to := x; v_comments := v_comments a; v_keywords := v_keywords a; v_trace := v_trace a; v_mime_version := v_mime_version a; v_content_type := v_content_type a; v_cte := v_cte a; v_content_id := v_content_id a; v_content_description := v_content_description a; v_content_disposition := v_content_disposition a; v_unknown := v_unknown a |}.
Definition set_comments a x : acc :=
  {| v_from := v_from a; v_sender := v_sender a; v_subject := v_subject a; v_date := v_date a; v_to := v_to a; v_cc := v_cc a; v_bcc := v_bcc a; v_message_id := v_message_id a; v_in_reply_to := v_in_reply_to a; v_references := v_references a; v_reply_to := v_reply_to a; v_comments := x; v_keywords := v_keywords a; v_trace := v_trace a; v_mime_version := v_mime_version a; v_content_type := v_content_type a; v_cte := v_cte a; v_content_id := v_content_id a; v_content_description := v_content_description a; v_content_disposition := v_content_disposition a; v_unknown := v_unknown a |}.
Definition set_keywords a x : acc :=
  {| v_from := v_from a; v_sender := v_sender a; v_subject := v_subject a; v_date := v_date a; v_to := v_to a; v_cc := v_cc a; v_bcc := v_bcc a; v_message_id := v_message_id a; v_in_reply_to := v_in_reply_to a; v_references := v_references a; v_reply_to := v_reply_to a; v_comments := v_comments a; v_keywords := x; v_trace := v_trace a; v_mime_version := v_mime_version a; v_content_type := v_content_type a; v_cte := v_cte a; v_content_id := v_content_id a; v_content_description := v_content_description a; v_content_disposition := v_content_disposition a; v_unknown := v_unknown a |}.
Definition set_trace a x : acc :=
  {| v_from := v_from a; v_sender := v_sender a; v_subject := v_subject a; v_date := v_date a; v_to := v_to a; v_cc := v_cc a; v_bcc := v_bcc a; v_message_id := v_message_id a; v_in_reply_to := v_in_reply_to a; v_references := v_references a; v_reply_to := v_reply_to a; v_comments := v_comments a; v_keywords := v_keywords a; v_trace := x; v_mime_version := v_mime_version a; v_content_type := v_content_type a; v_cte := v_cte a; v_content_id := v_content_id a; v_content_description := v_content_description a; v_content_disposition := v_content_disposition a; v_unknown := v_unknown a |}.
Definition set_mime_version a x : acc :=
  {| v_from := v_from a; v_sender := v_sender a; v_subject := v_subject a; v_date := v_date a; v_to := v_to a; v_cc := v_cc a; v_bcc := v_bcc a; v_message_id := v_message_id a; v_in_reply_to := v_in_reply_to a; v_references := v_references a; v_reply_to := v_reply_to a; v_comments := v_comments a; v_keywords := v_keywords a; v_trace := v_trace a; v_mime_version := x; v_content_type := v_content_type a; v_cte := v_cte a; v_content_id := v_content_id a; v_content_description := v_content_description a; v_content_disposition := v_content_disposition a; v_unknown := v_unknown a |}.
Definition set_content_type a x : acc :=
  {| v_from := v_from a; v_sender := v_sender a; v_subject := v_subject a; v_date := v_date a; v_to := v_to a; v_cc := v_cc a; v_bcc := v_bcc a; v_message_id := v_message_id a; v_in_reply_to := v_in_reply_to a; v_references := v_references a; v_reply_to := v_reply_to a; v_comments := v_comments a; v_keywords := v_keywords a; v_trace := v_trace a; v_mime_version := v_mime_version a; v_content_type := x; v_cte := v_cte a; v_content_id := v_content_id a; v_content_description := v_content_description a; v_content_disposition := v_content_disposition a; v_unknown := v_unknown a |}.
Definition set_cte a x : acc :=
  {| v_from := v_from a; v_sender := v_sender a; v_subject := v_subject a; v_date := v_date a; v_to := v_to a; v_cc := v_cc a; v_bcc := v_bcc a; v_message_id := v_message_id a; v_in_reply_to := v_in_reply_to a; v_references := v_references a; v_reply_to := v_reply_to a; v_comments := v_comments a; v_keywords := v_keywords a; v_trace := v_trace a; v_mime_version := v_mime_version a; v_content_type := v_content_type a; v_cte := x; v_content_id := v_content_id a; v_content_description := v_content_description a; v_content_disposition := v_content_disposition a; v_unknown := v_unknown a |}.
Definition set_content_id a x : acc :=
  {| v_from := v_from a; v_sender := v_sender a; v_subject := v_subject a; v_date := v_date a; v_to := v_to a; v_cc := v_cc a; v_bcc := v_bcc a; v_message_id := v_message_id a; v_in_reply_to := v_in_reply_to a; v_references := v_references a; v_reply_to := v_reply_to a; v_comments := v_comments a; v_keywords := v_keywords a; v_trace := v_trace a; v_mime_version := v_mime_version a; v_content_type := v_content_type a; v_cte := v_cte a; v_content_id := x; v_content_description := v_content_description a; v_content_disposition := v_content_disposition a; v_unknown := v_unknown a |}.
Definition set_content_description a x : acc :=
  {| v_from := v_from a; v_sender := v_sender a; v_subject := v_subject a; v_date := v_date a; v_to := v_to a; v_cc := v_cc a; v_bcc := v_bcc a; v_message_id := v_message_id a; v_in_reply_to := v_in_reply_to a; v_references := v_references a; v_reply_to := v_reply_to a; v_comments := v_comments a; v_keywords := v_keywords a; v_trace := v_trace a; v_mime_version := v_mime_version a; v_content_type := v_content_type a; v_cte := v_cte a; v_content_id := v_content_id a; v_content_description := x; v_content_disposition := v_content_disposition a; v_unknown := v_unknown a |}.
Definition set_content_disposition a x : acc :=
  {| v_from := v_from a; v_sender := v_sender a; v_subject := v_subject a; v_date := v_date a; v_to := v_to a; v_cc := v_cc a; v_bcc := v_bcc a; v_message_id := v_message_id a; v_in_reply_to := v_in_reply_to a; v_references := v_references a; v_reply_to := v_reply_to a; v_comments := v_comments a; v_keywords := v_keywords a; v_trace := v_trace a; v_mime_version := v_mime_version a; v_content_type := v_content_type a; v_cte := v_cte a; v_content_id := v_content_id a; v_content_description := v_content_description a; v_content_disposition := x; v_unknown := v_unknown a |}.
Definition set_unknown a x : acc :=
  {| v_from := v_from a; v_sender := v_sender a; v_subject := v_subject a; v_date := v_date a; v_to := v_to a; v_cc := v_cc a; v_bcc := v_bcc a; v_message_id := v_message_id a; v_in_reply_to := v_in_reply_to a; v_references := v_references a; v_reply_to := v_reply_to a; v_comments := v_comments a; v_keywords := v_keywords a; v_trace := v_trace a; v_mime_version := v_mime_version a; v_content_type := v_content_type a; v_cte := v_cte a; v_content_id := v_content_id a; v_content_description := v_content_description a; v_content_disposition := v_content_disposition a; v_unknown := x |}.

(* email.rs:145-303: the arms of the match on one field *)
Definition set_field (a : acc) (f : field) : res acc :=
  match f with
  | FFrom l => let* x := set_once (v_from a) l "From" in Ok (set_from a x)
  | FSender m => let* x := set_once (v_sender a) m "Sender" in Ok (set_sender a x)
  | FSubject s => let* x := set_once (v_subject a) s "Subject" in Ok (set_subject a x)
  | FDate d => let* x := set_once (v_date a) d "Date" in Ok (set_date a x)
  | FTo l => let* x := set_once (v_to a) l "To" in Ok (set_to a x)
  | FCc l => let* x := set_once (v_cc a) l "Cc" in Ok (set_cc a x)
  | FBcc l => let* x := set_once (v_bcc a) l "Bcc" in Ok (set_bcc a x)
  | FMessageId id => let* x := set_once (v_message_id a) id "Message-ID" in Ok (set_message_id a x)
  | FInReplyTo ids => let* x := set_once (v_in_reply_to a) ids "In-Reply-To" in Ok (set_in_reply_to a x)
  | FReferences ids => let* x := set_once (v_references a) ids "References" in Ok (set_references a x)
  | FReplyTo l => let* x := set_once (v_reply_to a) l "Reply-To" in Ok (set_reply_to a x)
  | FComments s => Ok (set_comments a (v_comments a ++ [s]))
  | FKeywords l => Ok (set_keywords a (v_keywords a ++ l))
  | FTrace rp rc l => Ok (set_trace a (v_trace a ++ [(rp, rc, l)]))
  | FMimeVersion x y => let* x := set_once (v_mime_version a) (x, y) "Mime-Version" in Ok (set_mime_version a x)
  | FContentType t s p => let* x := set_once (v_content_type a) (t, s, p) "Content-Type" in Ok (set_content_type a x)
  | FContentTransferEncoding e => let* x := set_once (v_cte a) e "Content-Transfer-Encoding" in Ok (set_cte a x)
  | FContentId id => let* x := set_once (v_content_id a) id "Content-Id" in Ok (set_content_id a x)
  | FContentDescription d => let* x := set_once (v_content_description a) d "Content-Description" in Ok (set_content_description a x)
  | FContentDisposition d => let* x := set_once (v_content_disposition a) d "Content-Disposition" in Ok (set_content_disposition a x)
  | FUnknown n v => Ok (set_unknown a (v_unknown a ++ [(n, v)]))
  end.

(* email.rs:144-304 *)
Fixpoint set_fields (a : acc) (fs : list field) : res acc :=
  match fs with
  | [] => Ok a
  | f :: fs' => let* a := set_field a f in set_fields a fs'
  end.

(* email.rs:306-386 *)
Definition finish (E : env) (a : acc) (b : option bytes) : res email :=
  (* 306-307 *)
  let* fr := if f_from E then ok_or (v_from a) (MissingHeader "From") else Ok [] in
  (* 308-309 *)
  let* da := if f_date E then (let* d := ok_or (v_date a) (MissingHeader "Date") in Ok (Some d)) else Ok None in
  (* 311-321 *)
  let* se :=
    if f_sender E then
      match v_sender a with
      | Some s => Ok (Some s)
      | None => match fr with
                | [m] => Ok (Some m)
                | _ => Err (MissingHeader "Sender")
                end
      end
    else Ok None in
  (* 323-340, 373-384 *)
  let* me :=
    if f_mime E then
      let '(t, s, p) := match v_content_type a with Some x => x | None => default_content_type end in
      let* v :=
        match b with
        | Some b => let* d := decode_value E b (match v_cte a with Some e => e | None => SevenBit end) in Ok (Some d)
        | None => Ok None
        end in
      Ok (Some {| e_mime_type := t; e_subtype := s; e_description := v_content_description a;
                  e_id := v_content_id a; e_parameters := p; e_disposition := v_content_disposition a;
                  e_value := match v with Some v => v | None => [] end;
                  e_additional_headers := [] |})
    else Ok None in
  (* 342-386 *)
  Ok {| body_of := if f_mime E then None else b;
        from := fr; sender := se; subject := v_subject a; date_of := da;
        to := v_to a; cc := v_cc a; bcc := v_bcc a; message_id_of := v_message_id a;
        in_reply_to := v_in_reply_to a; references := v_references a; reply_to := v_reply_to a;
        comments := v_comments a; keywords := v_keywords a; trace_of := v_trace a;
        mime_entity := me; unknown_fields := v_unknown a |}.

(* email.rs:96-388 Email::parse; email.rs:390-396 TryFrom::try_from is the same call *)
Definition parse (E : env) (data : bytes) : res email :=
  let* (fs, b) := parse_message E data in
  let* a := set_fields acc0 fs in
  finish E a b.

(* Specification for C73: mails that are cut off. *)
From Verif Require Import Base Time Address MimeFields Fields Entity Email Rfc5322.
Local Open Scope N_scope.

(* there is no empty line: the headers are not finished *)
Definition in_headers (d : bytes) : Prop := (forall x, d <> CRLF ++ x) /\ forall a b, d <> a ++ CRLF ++ CRLF ++ b.
(* the text stops inside of a line *)
Definition inside_line (d : bytes) : Prop := d <> [] /\ forall a, d <> a ++ CRLF.

(* what is left of an email: single values are there or not, of lists there is a beginning *)
Definition kept {A} (a' a : option A) : Prop := a' = None \/ a' = a.
Definition beginning {A} (l' l : list A) : Prop := exists r, l = l' ++ r.
(* without its header, the type is text/plain in us-ascii, RFC 2045 5.2 *)
Definition plain_text : content_type_t * bytes * list (bytes * bytes) := (CText, bs "plain", [(bs "charset", bs "us-ascii")]).
Definition full_type (r : raw_entity_t) : content_type_t * bytes * list (bytes * bytes) := (e_mime_type r, e_subtype r, e_parameters r).
Inductive left_entity : option raw_entity_t -> option raw_entity_t -> Prop :=
| left_none : left_entity None None
| left_some : forall r' r, full_type r' = full_type r \/ full_type r' = plain_text -> kept (e_description r') (e_description r) -> kept (e_id r') (e_id r) -> kept (e_disposition r') (e_disposition r) ->
    e_value r' = [] -> e_additional_headers r' = [] -> left_entity (Some r') (Some r).
Record left_email (e' e : email) : Prop := {
  left_body : body_of e' = None;
  left_from : from e' = from e;
  left_date : date_of e' = date_of e;
  (* the sender can get lost: then it is the only author *)
  left_sender : sender e' = sender e \/ exists a, from e = [a] /\ sender e' = Some a;
  left_subject : kept (subject e') (subject e);
  left_to : kept (to e') (to e);
  left_cc : kept (cc e') (cc e);
  left_bcc : kept (bcc e') (bcc e);
  left_message_id : kept (message_id_of e') (message_id_of e);
  left_in_reply_to : kept (in_reply_to e') (in_reply_to e);
  left_references : kept (references e') (references e);
  left_reply_to : kept (reply_to e') (reply_to e);
  left_comments : beginning (comments e') (comments e);
  left_keywords : beginning (keywords e') (keywords e);
  left_trace : beginning (trace_of e') (trace_of e);
  left_unknown : beginning (unknown_fields e') (unknown_fields e);
  left_mime : left_entity (mime_entity e') (mime_entity e)
}.
(* the headers that are mandatory *)
Definition mandatory_name (n : string) : Prop := n = "From"%string \/ n = "Date"%string \/ n = "Sender"%string.

(* the email with another body *)
Definition with_body (e : email) (b : option bytes) : email :=
  {| body_of := b; from := from e; sender := sender e; subject := subject e; date_of := date_of e; to := to e; cc := cc e; bcc := bcc e;
     message_id_of := message_id_of e; in_reply_to := in_reply_to e; references := references e; reply_to := reply_to e; comments := comments e; keywords := keywords e;
     trace_of := trace_of e; mime_entity := mime_entity e; unknown_fields := unknown_fields e |}.

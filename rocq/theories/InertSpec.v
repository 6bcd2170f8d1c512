(* Specification for C72: the email with another sender and other unknown headers. *)
From Verif Require Import Base Time Address MimeFields Fields Entity Email.

Definition with_sender (e : email) (s : option mailbox_t) (u : list (bytes * bytes)) : email :=
  {| body_of := body_of e; from := from e; sender := s; subject := subject e; date_of := date_of e; to := to e; cc := cc e; bcc := bcc e;
     message_id_of := message_id_of e; in_reply_to := in_reply_to e; references := references e; reply_to := reply_to e; comments := comments e; keywords := keywords e;
     trace_of := trace_of e; mime_entity := mime_entity e; unknown_fields := u |}.
(* the headers whose values are message identifiers, RFC 5322 3.6.4 and RFC 2045 7 *)
Definition identifying : list string := ["Message-ID"; "In-Reply-To"; "References"; "Content-ID"]%string.

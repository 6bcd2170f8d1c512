(* Specification for C21 and C40: header blocks, emails that differ in the body only, and
   emails that differ in the capitalisation of names only. *)
From Verif Require Import Base Time Address MimeFields Fields Message Entity Email Rfc5322 RfcFields EmailSpec.

(* a block of header lines, the last line end missing: not empty, and no empty line in it *)
Definition header_block (h : bytes) : Prop :=
  h <> [] /\ (forall x, h <> CRLF ++ x) /\ (forall a b, h ++ CRLF <> a ++ CRLF ++ CRLF ++ b).

(* the same entity but for the value *)
Inductive same_entity : option raw_entity_t -> option raw_entity_t -> Prop :=
| same_entity_none : same_entity None None
| same_entity_some : forall r r', e_mime_type r = e_mime_type r' -> e_subtype r = e_subtype r' -> e_description r = e_description r' -> e_id r = e_id r' ->
    e_parameters r = e_parameters r' -> e_disposition r = e_disposition r' -> e_additional_headers r = e_additional_headers r' -> same_entity (Some r) (Some r').
(* the same email but for the body *)
Record same_headers (e e' : email) : Prop := {
  sh_from : from e = from e'; sh_sender : sender e = sender e'; sh_subject : subject e = subject e'; sh_date : date_of e = date_of e';
  sh_to : to e = to e'; sh_cc : cc e = cc e'; sh_bcc : bcc e = bcc e'; sh_message_id : message_id_of e = message_id_of e';
  sh_in_reply_to : in_reply_to e = in_reply_to e'; sh_references : references e = references e'; sh_reply_to : reply_to e = reply_to e';
  sh_comments : comments e = comments e'; sh_keywords : keywords e = keywords e'; sh_trace : trace_of e = trace_of e';
  sh_unknown : unknown_fields e = unknown_fields e'; sh_mime : same_entity (mime_entity e) (mime_entity e')
}.

(* ---- capitalisation ---- *)
(* the same field, but for the capitalisation of the name of an unknown header *)
Inductive recased_field : field -> field -> Prop :=
| recased_same : forall f, recased_field f f
| recased_unknown : forall n n' v, same_nocase n n' -> recased_field (FUnknown n v) (FUnknown n' v).
(* the same email, but for the capitalisation of the names of unknown headers *)
Definition recased_email (e e' : email) : Prop :=
  e' = {| body_of := body_of e; from := from e; sender := sender e; subject := subject e; date_of := date_of e; to := to e; cc := cc e; bcc := bcc e;
    message_id_of := message_id_of e; in_reply_to := in_reply_to e; references := references e; reply_to := reply_to e; comments := comments e; keywords := keywords e;
    trace_of := trace_of e; mime_entity := mime_entity e; unknown_fields := unknown_fields e' |} /\
  Forall2 (fun x y => same_nocase (fst x) (fst y) /\ snd x = snd y) (unknown_fields e) (unknown_fields e').
(* changing the capitalisation of header names, one after the other: each name starts the
   message or follows a line end of the header block *)
Definition header_start (pre : bytes) : Prop := pre = [] \/ exists h, header_block h /\ pre = h ++ CRLF.
Inductive recased_text : bytes -> bytes -> Prop :=
| recased_text_refl : forall d, recased_text d d
| recased_text_step : forall pre n n' r d, header_start pre -> chars1 rfc_ftext n -> same_nocase n n' ->
    recased_text (pre ++ n' ++ bs ":" ++ r) d -> recased_text (pre ++ n ++ bs ":" ++ r) d.
(* two outcomes: related values, or both a failure *)
Definition same_outcome {A} (R : A -> A -> Prop) (x y : res A) : Prop :=
  match x, y with
  | Ok a, Ok b => R a b
  | Err _, Err _ => True
  | Crash k, Crash k' => k = k'
  | _, _ => False
  end.

(* ---- malformed headers ---- *)
(* x is the text of a recognised header: a structured field, or a line of a trace block *)
Inductive structured_line (E : env) (x : bytes) : Prop :=
| structured_field : forall f, field_text E x f -> is_unknown f = None -> structured_line E x
| structured_return : forall v, f_trace E = true -> rfc_header "Return-Path" (rfc_path (f_compatibility_fixes E)) x v -> structured_line E x
| structured_received : forall v, f_trace E = true -> rfc_header "Received" (rfc_received (f_compatibility_fixes E)) x v -> structured_line E x
| structured_resent : forall v, f_trace E = true -> rfc_resent (f_compatibility_fixes E) (encoded E) x v -> structured_line E x.
(* no beginning of the line is *)
Definition malformed (E : env) (line : bytes) : Prop := forall x y, line = x ++ y -> ~ structured_line E x.

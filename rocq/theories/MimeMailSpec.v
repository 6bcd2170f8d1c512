(* Specification for C61: the emails that a build with the mime feature can return, as conditions
   on the values alone. *)
From Verif Require Import Base Utf8 Time Address MimeFields Fields Entity Email Rfc5322 RfcFields CompleteFields Writers MailSpec.
Local Open Scope N_scope.

(* any text *)
Definition utf8_text (v : bytes) : Prop := utf8_valid v = true.
(* a display name, or a keyword: at least one word *)
Definition utf8_name (n : list bytes) : Prop := some_of utf8_text n.
Definition utf8_mailbox (m : mailbox_t) : Prop :=
  writable_address (m_address m) /\ match m_name m with None => True | Some n => utf8_name n end.
Definition utf8_recipient (a : address_t) : Prop :=
  match a with
  | AMailbox m => utf8_mailbox m
  | AGroup (n, l) => utf8_name n /\ Forall utf8_mailbox l
  end.

(* ---- trace blocks ---- *)
Definition utf8_resent (compat : bool) (t : trace_field) : Prop :=
  match t with
  | TDate d => date_in_range d
  | TFrom l => some_of utf8_mailbox l
  | TSender m => utf8_mailbox m
  | TTo l | TCc l => some_of utf8_recipient l
  | TBcc l => Forall utf8_recipient l
  | TMessageId i => id_value compat i
  end.
Definition utf8_block (compat : bool) (t : block) : Prop :=
  let '(p, r, l) := t in
  match p with Some (Some a) => writable_address a | _ => True end /\ some_of received_ok r /\ Forall (utf8_resent compat) l.

(* ---- MIME headers ---- *)
(* a token in lower case *)
Definition lower_token (n : bytes) : Prop := mime_token n /\ map fold_case n = n.
(* one that does not start like a known keyword *)
Definition other_keyword {A} (table : list (bytes * A)) (n : bytes) : Prop :=
  lower_token n /\ forall k a x, In (k, a) table -> n <> k ++ x.
Definition type_name (t : content_type_t) : Prop := match t with CUnknown n => other_keyword mime_types n | _ => True end.
Definition disposition_name (t : disposition_type_t) : Prop := match t with DUnknown n => other_keyword mime_dispositions n | _ => True end.
(* a parameter: its name has no star, and its value is any text; or the name has stars but not the
   form of a name with an index, and the value is printable *)
Definition parameter_value (n v : bytes) : Prop :=
  lower_token n /\
  ((~ In 42 n /\ utf8_text v) \/ ((forall x, ~ indexed_param_name n x) /\ chars printable v)).
(* each parameter of a map *)
Definition parameters_value (l : list (bytes * bytes)) : Prop := forall n v, map_get l n = Some v -> parameter_value n v.
Record disposition_range (d : disposition_t) : Prop := {
  dsp_type : disposition_name (disposition_type d);
  dsp_filename : optional_value true (chars printable) (disp_filename d);
  dsp_creation : optional_value true date_in_range (disp_creation_date d);
  dsp_modification : optional_value true date_in_range (disp_modification_date d);
  dsp_read : optional_value true date_in_range (disp_read_date d);
  dsp_parameters : parameters_value (disp_unstructured d)
}.
Record entity_value (compat : bool) (r : raw_entity_t) : Prop := {
  ent_type : type_name (e_mime_type r);
  ent_subtype : lower_token (e_subtype r);
  ent_description : optional_value true utf8_text (e_description r);
  ent_id : optional_value true (id_value compat) (e_id r);
  ent_parameters : parameters_value (e_parameters r);
  ent_disposition : optional_value true disposition_range (e_disposition r);
  ent_value : wf_bytes (e_value r);
  ent_headers : e_additional_headers r = []
}.

(* ---- other headers ---- *)
(* any name but those of the text headers, which take any value *)
Definition utf8_unknown (E : env) (u : bytes * bytes) : Prop :=
  chars1 rfc_ftext (fst u) /\ (if f_unrecognized_headers E then utf8_text (snd u) else text_line (snd u)) /\
  (f_subject E = true -> ~ same_nocase (fst u) (bs "Subject")) /\ (f_comments E = true -> ~ same_nocase (fst u) (bs "Comments")) /\
  ~ same_nocase (fst u) (bs "Content-Description").
(* the MIME headers that may end with blanks; without the feature unrecognized-headers their values
   cannot be written as encoded words if they are not understood *)
Definition blank_ended : list string := ["MIME-Version"; "Content-Type"; "Content-Transfer-Encoding"; "Content-Disposition"]%string.
Definition unclaimed (E : env) (u : bytes * bytes) : Prop :=
  f_unrecognized_headers E = true \/ forall name, In name blank_ended -> ~ same_nocase (fst u) (bs name).

Record mime_mail_value (E : env) (e : email) : Prop := {
  mv_from : if f_from E then some_of utf8_mailbox (from e) else from e = [];
  mv_sender : if f_sender E then exists m, sender e = Some m /\ utf8_mailbox m else sender e = None;
  mv_date : if f_date E then exists d, date_of e = Some d /\ date_in_range d else date_of e = None;
  mv_subject : optional_value (f_subject E) utf8_text (subject e);
  mv_to : optional_value (f_to E) (some_of utf8_recipient) (to e);
  mv_cc : optional_value (f_cc E) (some_of utf8_recipient) (cc e);
  mv_bcc : optional_value (f_bcc E) (Forall utf8_recipient) (bcc e);
  mv_reply_to : optional_value (f_reply_to E) (some_of utf8_recipient) (reply_to e);
  mv_message_id : optional_value (f_message_id E) (id_value (f_compatibility_fixes E)) (message_id_of e);
  mv_in_reply_to : optional_value (f_in_reply_to E) (some_of (id_value (f_compatibility_fixes E))) (in_reply_to e);
  mv_references : optional_value (f_references E) (some_of (id_value (f_compatibility_fixes E))) (references e);
  mv_comments : Forall utf8_text (comments e) /\ (f_comments E = false -> comments e = []);
  mv_keywords : Forall utf8_name (keywords e) /\ (f_keywords E = false -> keywords e = []);
  mv_trace : Forall (utf8_block (f_compatibility_fixes E)) (trace_of e) /\ parted (trace_of e) /\ (f_trace E = false -> trace_of e = []);
  mv_unknown : Forall (utf8_unknown E) (unknown_fields e);
  mv_body : body_of e = None;
  mv_mime : exists r, mime_entity e = Some r /\ entity_value (f_compatibility_fixes E) r
}.

(* Specification for C47: the emails that a build without the mime feature can return, as
   conditions on the values alone. *)
From Verif Require Import Base Time Address Fields Email Rfc5322 Writers EmailSpec.
Local Open Scope N_scope.

(* a line of printable text that does not end with a blank *)
Definition text_line (v : bytes) : Prop := chars printable v /\ forall a b, v = a ++ [b] -> ~ rfc_WSP b.
(* a field that may be absent, and is if its feature is off *)
Definition optional_value {A} (on : bool) (W : A -> Prop) (o : option A) : Prop :=
  match o with None => True | Some a => on = true /\ W a end.
Definition some_of {A} (W : A -> Prop) (l : list A) : Prop := l <> [] /\ Forall W l.
Definition id_value (compat : bool) (i : bytes * bytes) : Prop := rfc_dot_atom_text compat (fst i) /\ chars rfc_dtext (snd i).
(* a keyword: at least one word *)
Definition keyword_value (k : list bytes) : Prop := some_of (chars printable) k.

(* ---- trace blocks ---- *)
Definition token_value (t : received_token) : Prop :=
  match t with
  | RWord w => chars printable w
  | RAddr a => writable_address a
  | RDomain d => chars rfc_dtext d
  end.
Definition received_ok (r : list received_token * date_time_t) : Prop := Forall token_value (fst r) /\ date_in_range (snd r).
Definition resent_value (compat : bool) (t : trace_field) : Prop :=
  match t with
  | TDate d => date_in_range d
  | TFrom l => some_of writable_mailbox l
  | TSender m => writable_mailbox m
  | TTo l | TCc l => some_of writable_recipient l
  | TBcc l => Forall writable_recipient l
  | TMessageId i => id_value compat i
  end.
Definition block := (option (option email_address) * list (list received_token * date_time_t) * list trace_field)%type.
Definition block_value (compat : bool) (t : block) : Prop :=
  let '(p, r, l) := t in
  match p with Some (Some a) => writable_address a | _ => True end /\ some_of received_ok r /\ Forall (resent_value compat) l.
(* two blocks in a row are told apart by the resent headers of the first or the return path
   of the second *)
Inductive parted : list block -> Prop :=
| parted_nil : parted []
| parted_one : forall t, parted [t]
| parted_more : forall p r l p' r' l' ts, l <> [] \/ p' <> None -> parted ((p', r', l') :: ts) -> parted ((p, r, l) :: (p', r', l') :: ts).

(* ---- other headers ---- *)
(* any name but those of the two text headers, which take any value *)
Definition unknown_value (E : env) (u : bytes * bytes) : Prop :=
  chars1 rfc_ftext (fst u) /\ text_line (snd u) /\
  (f_subject E = true -> ~ same_nocase (fst u) (bs "Subject")) /\ (f_comments E = true -> ~ same_nocase (fst u) (bs "Comments")).

Record mail_value (E : env) (e : email) : Prop := {
  val_from : if f_from E then some_of writable_mailbox (from e) else from e = [];
  val_sender : if f_sender E then exists m, sender e = Some m /\ writable_mailbox m else sender e = None;
  val_date : if f_date E then exists d, date_of e = Some d /\ date_in_range d else date_of e = None;
  val_subject : optional_value (f_subject E) text_line (subject e);
  val_to : optional_value (f_to E) (some_of writable_recipient) (to e);
  val_cc : optional_value (f_cc E) (some_of writable_recipient) (cc e);
  val_bcc : optional_value (f_bcc E) (Forall writable_recipient) (bcc e);
  val_reply_to : optional_value (f_reply_to E) (some_of writable_recipient) (reply_to e);
  val_message_id : optional_value (f_message_id E) (id_value (f_compatibility_fixes E)) (message_id_of e);
  val_in_reply_to : optional_value (f_in_reply_to E) (some_of (id_value (f_compatibility_fixes E))) (in_reply_to e);
  val_references : optional_value (f_references E) (some_of (id_value (f_compatibility_fixes E))) (references e);
  val_comments : Forall text_line (comments e) /\ (f_comments E = false -> comments e = []);
  val_keywords : Forall keyword_value (keywords e) /\ (f_keywords E = false -> keywords e = []);
  val_trace : Forall (block_value (f_compatibility_fixes E)) (trace_of e) /\ parted (trace_of e) /\ (f_trace E = false -> trace_of e = []);
  val_unknown : Forall (unknown_value E) (unknown_fields e);
  val_body : optional_value true body_text (body_of e);
  val_mime : mime_entity e = None
}.

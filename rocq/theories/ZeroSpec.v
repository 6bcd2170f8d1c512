(* Specification for C62: an email whose strings are slices or copies, and the same email with its
   strings written out. *)
From Verif Require Import Base CharSets Time Address MimeFields Fields Entity Email StringCow StringSpec ZeroCopy.

Definition like_option {A B} (R : A -> B -> Prop) (x : option A) (y : option B) : Prop :=
  match x, y with Some a, Some b => R a b | None, None => True | _, _ => False end.
Definition like_pair {A B C D} (R : A -> B -> Prop) (Q : C -> D -> Prop) (x : A * C) (y : B * D) : Prop := R (fst x) (fst y) /\ Q (snd x) (snd y).

(* two emails of the same shape, with strings related by [text]; but the domains of addresses by
   [domain], and the ids, the names of unknown headers and the body of a build without mime by [fixed],
   the names of types and the parameters by [loose] and the value of the entity by [raw] *)
Section Like.
Variables text domain fixed loose raw : cow -> bytes -> Prop.

Definition like_address (a : z_email_address) (b : email_address) : Prop := text (z_local_part a) (a_local_part b) /\ domain (z_domain a) (a_domain b).
Definition like_mailbox (a : z_mailbox_t) (b : mailbox_t) : Prop := like_option (Forall2 text) (z_name a) (m_name b) /\ like_address (z_address a) (m_address b).
Definition like_entry (a : z_address_t) (b : address_t) : Prop :=
  match a, b with
  | ZMailbox a, AMailbox b => like_mailbox a b
  | ZGroup a, AGroup b => like_pair (Forall2 text) (Forall2 like_mailbox) a b
  | _, _ => False
  end.
Definition like_id : cow * cow -> bytes * bytes -> Prop := like_pair fixed fixed.
Definition like_trace_field (a : z_trace_field) (b : trace_field) : Prop :=
  match a, b with
  | ZTDate a, TDate b => a = b
  | ZTFrom a, TFrom b => Forall2 like_mailbox a b
  | ZTSender a, TSender b => like_mailbox a b
  | ZTTo a, TTo b | ZTCc a, TCc b | ZTBcc a, TBcc b => Forall2 like_entry a b
  | ZTMessageId a, TMessageId b => like_id a b
  | _, _ => False
  end.
Definition like_token (a : z_received_token) (b : received_token) : Prop :=
  match a, b with
  | ZWord a, RWord b => text a b
  | ZAddr a, RAddr b => like_address a b
  | ZDomain a, RDomain b => domain a b
  | _, _ => False
  end.
Definition like_received : list z_received_token * date_time_t -> list received_token * date_time_t -> Prop := like_pair (Forall2 like_token) eq.
Definition like_trace : option (option z_email_address) * list (list z_received_token * date_time_t) * list z_trace_field ->
                        option (option email_address) * list (list received_token * date_time_t) * list trace_field -> Prop :=
  like_pair (like_pair (like_option (like_option like_address)) (Forall2 like_received)) (Forall2 like_trace_field).
Definition like_unknown : str_slice * cow -> bytes * bytes -> Prop := like_pair (fun s v => fixed (borrow s) v) text.
Definition like_type (a : z_content_type_t) (b : content_type_t) : Prop :=
  match a, b with
  | ZOther a, CUnknown b => loose a b
  | ZOther _, _ | _, CUnknown _ => False
  | ZKnown a, b => a = b
  end.
Definition like_map {V W} (R : V -> W -> Prop) : z_map V -> list (bytes * W) -> Prop :=
  Forall2 (fun x y => fst x = fst y /\ loose (fst (snd x)) (fst y) /\ R (snd (snd x)) (snd y)).
Definition like_disposition_type (a : z_disposition_type_t) (b : disposition_type_t) : Prop :=
  match a, b with
  | ZDInline, DInline | ZDAttachment, DAttachment => True
  | ZDUnknown a, DUnknown b => loose a b
  | _, _ => False
  end.
Record like_disposition (a : z_disposition_t) (b : disposition_t) : Prop := {
  ld_type : like_disposition_type (z_disposition_type a) (disposition_type b);
  ld_filename : like_option text (z_filename a) (disp_filename b);
  ld_creation : z_creation_date a = disp_creation_date b;
  ld_modification : z_modification_date a = disp_modification_date b;
  ld_read : z_read_date a = disp_read_date b;
  ld_params : like_map loose (z_unstructured_params a) (disp_unstructured b)
}.
Record like_entity (a : z_raw_entity_t) (b : raw_entity_t) : Prop := {
  lr_type : like_type (zr_type a) (e_mime_type b);
  lr_subtype : loose (zr_subtype a) (e_subtype b);
  lr_description : like_option text (zr_description a) (e_description b);
  lr_id : like_option like_id (zr_id a) (e_id b);
  lr_parameters : like_map loose (zr_parameters a) (e_parameters b);
  lr_disposition : like_option like_disposition (zr_disposition a) (e_disposition b);
  lr_value : raw (zr_value a) (e_value b);
  lr_additional : Forall2 (like_pair fixed text) (zr_additional a) (e_additional_headers b)
}.
Record like_email (a : z_email) (b : email) : Prop := {
  like_body : like_option fixed (ze_body a) (body_of b);
  like_from : Forall2 like_mailbox (ze_from a) (from b);
  like_sender : like_option like_mailbox (ze_sender a) (sender b);
  like_subject : like_option text (ze_subject a) (subject b);
  like_date : ze_date a = date_of b;
  like_to : like_option (Forall2 like_entry) (ze_to a) (to b);
  like_cc : like_option (Forall2 like_entry) (ze_cc a) (cc b);
  like_bcc : like_option (Forall2 like_entry) (ze_bcc a) (bcc b);
  like_message_id : like_option like_id (ze_message_id a) (message_id_of b);
  like_in_reply_to : like_option (Forall2 like_id) (ze_in_reply_to a) (in_reply_to b);
  like_references : like_option (Forall2 like_id) (ze_references a) (references b);
  like_reply_to : like_option (Forall2 like_entry) (ze_reply_to a) (reply_to b);
  like_comments : Forall2 text (ze_comments a) (comments b);
  like_keywords : Forall2 (Forall2 text) (ze_keywords a) (keywords b);
  like_traces : Forall2 like_trace (ze_trace a) (trace_of b);
  like_mime : like_option like_entity (ze_entity a) (mime_entity b);
  like_unknowns : Forall2 like_unknown (ze_unknown a) (unknown_fields b)
}.
End Like.

(* the strings of an email: the texts, the domains, the ids, header names and body; the names of types
   and the parameters; the value of the entity *)
Inductive kind := Text | Domain | Fixed | Loose | Raw.
Definition of_option {A} (f : A -> list (kind * cow)) (x : option A) : list (kind * cow) := match x with Some a => f a | None => [] end.
Definition texts (l : list cow) : list (kind * cow) := map (fun c => (Text, c)) l.
Definition of_address (a : z_email_address) : list (kind * cow) := [(Text, z_local_part a); (Domain, z_domain a)].
Definition of_mailbox (b : z_mailbox_t) : list (kind * cow) := of_option texts (z_name b) ++ of_address (z_address b).
Definition of_entry (a : z_address_t) : list (kind * cow) :=
  match a with ZMailbox b => of_mailbox b | ZGroup (n, l) => texts n ++ flat_map of_mailbox l end.
Definition of_id (x : cow * cow) : list (kind * cow) := [(Fixed, fst x); (Fixed, snd x)].
Definition of_trace_field (f : z_trace_field) : list (kind * cow) :=
  match f with
  | ZTDate _ => []
  | ZTFrom l => flat_map of_mailbox l
  | ZTSender b => of_mailbox b
  | ZTTo l | ZTCc l | ZTBcc l => flat_map of_entry l
  | ZTMessageId x => of_id x
  end.
Definition of_token (t : z_received_token) : list (kind * cow) :=
  match t with ZWord w => [(Text, w)] | ZAddr a => of_address a | ZDomain d => [(Domain, d)] end.
Definition of_trace (x : option (option z_email_address) * list (list z_received_token * date_time_t) * list z_trace_field) : list (kind * cow) :=
  let '(rp, rc, l) := x in
  of_option (of_option of_address) rp ++ flat_map (fun r => flat_map of_token (fst r)) rc ++ flat_map of_trace_field l.
Definition of_params (l : z_map cow) : list (kind * cow) := flat_map (fun x => [(Loose, fst (snd x)); (Loose, snd (snd x))]) l.
Definition of_disposition (d : z_disposition_t) : list (kind * cow) :=
  match z_disposition_type d with ZDUnknown n => [(Loose, n)] | _ => [] end ++ of_option (fun c => [(Text, c)]) (z_filename d) ++ of_params (z_unstructured_params d).
Definition of_entity (r : z_raw_entity_t) : list (kind * cow) :=
  match zr_type r with ZOther n => [(Loose, n)] | _ => [] end ++ [(Loose, zr_subtype r)] ++ of_option (fun c => [(Text, c)]) (zr_description r) ++ of_option of_id (zr_id r) ++
  of_params (zr_parameters r) ++ of_option of_disposition (zr_disposition r) ++ [(Raw, zr_value r)] ++ flat_map (fun x => [(Fixed, fst x); (Text, snd x)]) (zr_additional r).
Definition strings_of (e : z_email) : list (kind * cow) :=
  of_option (fun c => [(Fixed, c)]) (ze_body e) ++ flat_map of_mailbox (ze_from e) ++ of_option of_mailbox (ze_sender e) ++
  of_option (fun c => [(Text, c)]) (ze_subject e) ++ of_option (flat_map of_entry) (ze_to e) ++ of_option (flat_map of_entry) (ze_cc e) ++
  of_option (flat_map of_entry) (ze_bcc e) ++ of_option of_id (ze_message_id e) ++ of_option (flat_map of_id) (ze_in_reply_to e) ++
  of_option (flat_map of_id) (ze_references e) ++ of_option (flat_map of_entry) (ze_reply_to e) ++ texts (ze_comments e) ++
  flat_map texts (ze_keywords e) ++ flat_map of_trace (ze_trace e) ++
  flat_map (fun x => [(Fixed, borrow (fst x)); (Text, snd x)]) (ze_unknown e) ++ of_option of_entity (ze_entity e).

(* c is the bytes v *)
Definition is_bytes (m : mem) (c : cow) (v : bytes) : Prop := match c with Borrowed p n => length v = n /\ at_address m p v | Owned s => s = v end.
(* the literals "plain", "charset" and "us-ascii" are in memory; c is one of them *)
Definition loaded (m : mem) (l : literals) : Prop := at_address m (at_plain l) (bs "plain") /\ at_address m (at_charset l) (bs "charset") /\ at_address m (at_ascii l) (bs "us-ascii").
Definition is_literal (l : literals) (c : cow) : Prop := c = Borrowed (at_plain l) 5 \/ c = Borrowed (at_charset l) 7 \/ c = Borrowed (at_ascii l) 8.
Definition is_borrowed (c : cow) : Prop := match c with Borrowed _ _ => True | Owned _ => False end.
(* a line break followed by a blank *)
Definition folded (w : bytes) : Prop := exists a x b, w = a ++ CRLF ++ x :: b /\ is_wsp x = true.
Definition quiet (w : bytes) : Prop := ~ In BACKSLASH w /\ ~ folded w.
(* nor, with mime, the start of an encoded word *)
Definition quiet_for (E : env) (w : bytes) : Prop := quiet w /\ (f_mime E = true -> ~ exists a b, w = a ++ bs "=?" ++ b).
(* the headers of a mail: all lines before the first empty one *)
Record headers_of (D h : bytes) : Prop := {
  ho_lines : h = [] \/ exists a, h = a ++ CRLF;
  ho_no_empty : forall a b, CRLF ++ h <> a ++ CRLF ++ CRLF ++ b;
  ho_rest : D = h \/ exists b, D = h ++ CRLF ++ b
}.
(* the dropped bytes, if any, all come first: nothing, the line break of a fold, or a backslash *)
Definition kept_together (backslashes : bool) (w v : bytes) : Prop := w = v \/ w = CRLF ++ v \/ backslashes = true /\ w = BACKSLASH :: v.

(* w is empty or its last byte is in P *)
Definition ends_in (P : N -> Prop) (w : bytes) : Prop := w = [] \/ exists u x, w = u ++ [x] /\ P x.

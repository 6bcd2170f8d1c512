(* Specification for C32 and C46: the strings of an email and of its parts. *)
From Verif Require Import Base Time Address MimeFields Fields Entity Email EmailSpec.

(* Two kinds: texts, which may have been decoded (encoded words, extended parameters), and
   the others. *)
Definition mailbox_texts (m : mailbox_t) : list bytes := match m_name m with Some l => l | None => [] end.
Definition address_texts (a : address_t) : list bytes :=
  match a with
  | AMailbox m => mailbox_texts m
  | AGroup (n, l) => n ++ concat (map mailbox_texts l)
  end.
Definition email_address_strings (a : email_address) : list bytes := [a_local_part a; a_domain a].
Definition mailbox_strings (m : mailbox_t) : list bytes := email_address_strings (m_address m).
Definition address_strings (a : address_t) : list bytes :=
  match a with
  | AMailbox m => mailbox_strings m
  | AGroup (_, l) => concat (map mailbox_strings l)
  end.
Definition id_strings (i : bytes * bytes) : list bytes := [fst i; snd i].
Definition token_strings (t : received_token) : list bytes :=
  match t with
  | RWord w => [w]
  | RAddr a => email_address_strings a
  | RDomain d => [d]
  end.
Definition resent_texts (t : trace_field) : list bytes :=
  match t with
  | TFrom l => concat (map mailbox_texts l)
  | TSender m => mailbox_texts m
  | TTo l | TCc l | TBcc l => concat (map address_texts l)
  | TDate _ | TMessageId _ => []
  end.
Definition resent_strings (t : trace_field) : list bytes :=
  match t with
  | TFrom l => concat (map mailbox_strings l)
  | TSender m => mailbox_strings m
  | TTo l | TCc l | TBcc l => concat (map address_strings l)
  | TMessageId i => id_strings i
  | TDate _ => []
  end.
Definition trace_texts (t : option (option email_address) * list (list received_token * date_time_t) * list trace_field) : list bytes :=
  let '(_, _, resent) := t in concat (map resent_texts resent).
Definition trace_strings (t : option (option email_address) * list (list received_token * date_time_t) * list trace_field) : list bytes :=
  let '(p, received, resent) := t in
  match p with Some (Some a) => email_address_strings a | _ => [] end ++
  concat (map (fun '(l, _) => concat (map token_strings l)) received) ++ concat (map resent_strings resent).
Definition type_strings (t : content_type_t) : list bytes := match t with CUnknown n => [n] | _ => [] end.
(* the values of a hash map *)
Definition map_values (l : list (bytes * bytes)) : list bytes := concat (map (fun k => opt_list (map_get l k)) (map fst l)).
Definition disposition_texts (d : disposition_t) : list bytes := map_values (disp_unstructured d).
Definition disposition_strings (d : disposition_t) : list bytes :=
  match disposition_type d with DUnknown n => [n] | _ => [] end ++ opt_list (disp_filename d) ++ map fst (disp_unstructured d).

(* a part; its value is not a string *)
Definition entity_texts (r : raw_entity_t) : list bytes :=
  opt_list (e_description r) ++ map_values (e_parameters r) ++
  match e_disposition r with Some d => disposition_texts d | None => [] end ++ map snd (e_additional_headers r).
Definition entity_strings (r : raw_entity_t) : list bytes :=
  type_strings (e_mime_type r) ++ [e_subtype r] ++ match e_id r with Some i => id_strings i | None => [] end ++ map fst (e_parameters r) ++
  match e_disposition r with Some d => disposition_strings d | None => [] end ++ map fst (e_additional_headers r).

Definition opt_concat {A} (f : A -> list bytes) (o : option (list A)) : list bytes := match o with Some l => concat (map f l) | None => [] end.
Definition email_texts (e : email) : list bytes :=
  concat (map mailbox_texts (from e)) ++ match sender e with Some m => mailbox_texts m | None => [] end ++ opt_list (subject e) ++
  opt_concat address_texts (to e) ++ opt_concat address_texts (cc e) ++ opt_concat address_texts (bcc e) ++ opt_concat address_texts (reply_to e) ++
  comments e ++ concat (keywords e) ++ concat (map trace_texts (trace_of e)) ++ map snd (unknown_fields e) ++
  match mime_entity e with Some r => entity_texts r | None => [] end.
Definition email_strings (e : email) : list bytes :=
  concat (map mailbox_strings (from e)) ++ match sender e with Some m => mailbox_strings m | None => [] end ++
  opt_concat address_strings (to e) ++ opt_concat address_strings (cc e) ++ opt_concat address_strings (bcc e) ++ opt_concat address_strings (reply_to e) ++
  match message_id_of e with Some i => id_strings i | None => [] end ++ opt_concat id_strings (in_reply_to e) ++ opt_concat id_strings (references e) ++
  concat (map trace_strings (trace_of e)) ++ map fst (unknown_fields e) ++
  match mime_entity e with Some r => entity_strings r | None => [] end.
(* a parsed entity *)
Definition parsed_strings (t : entity_t) : list bytes :=
  match t with
  | EMultipart s l => s :: concat (map (fun r => entity_texts r ++ entity_strings r) l)
  | EText s v => [s; v]
  | EUnknown => []
  end.

(* Specification for C41: headers as RFC 5322 describes them (field_text of RfcFields.v), and
   values that differ only in where a display name is cut into words. *)
From Verif Require Import Base Time Address Fields Rfc5322 RfcFields CompleteFields.
Local Open Scope N_scope.

(* RFC 5322 reads the atom "ab" as one word and as two: the words may be cut differently *)
Definition same_words (l l' : list bytes) : Prop := concat l = concat l'.
Inductive same_mailbox : mailbox_t -> mailbox_t -> Prop :=
| same_unnamed : forall a, same_mailbox {| m_name := None; m_address := a |} {| m_name := None; m_address := a |}
| same_named : forall n n' a, same_words n n' -> same_mailbox {| m_name := Some n; m_address := a |} {| m_name := Some n'; m_address := a |}.
Inductive same_address : address_t -> address_t -> Prop :=
| same_address_mailbox : forall m m', same_mailbox m m' -> same_address (AMailbox m) (AMailbox m')
| same_address_group : forall n n' l l', same_words n n' -> Forall2 same_mailbox l l' -> same_address (AGroup (n, l)) (AGroup (n', l')).
(* likewise the tokens of a Received header: "a.b" is one domain, or the word "a"... *)
Definition token_letters (t : received_token) : list (byte + email_address) :=
  match t with RWord w => map inl w | RAddr a => [inr a] | RDomain d => map inl d end.
Definition same_tokens (l l' : list received_token) : Prop := flat_map token_letters l = flat_map token_letters l'.
Definition same_received (r r' : list received_token * date_time_t) : Prop := same_tokens (fst r) (fst r') /\ snd r = snd r'.
Inductive same_resent : trace_field -> trace_field -> Prop :=
| same_resent_date : forall d, same_resent (TDate d) (TDate d)
| same_resent_from : forall l l', Forall2 same_mailbox l l' -> same_resent (TFrom l) (TFrom l')
| same_resent_sender : forall m m', same_mailbox m m' -> same_resent (TSender m) (TSender m')
| same_resent_to : forall l l', Forall2 same_address l l' -> same_resent (TTo l) (TTo l')
| same_resent_cc : forall l l', Forall2 same_address l l' -> same_resent (TCc l) (TCc l')
| same_resent_bcc : forall l l', Forall2 same_address l l' -> same_resent (TBcc l) (TBcc l')
| same_resent_msg_id : forall i, same_resent (TMessageId i) (TMessageId i).
Inductive alike : field -> field -> Prop :=
| alike_same : forall f, alike f f
| alike_from : forall l l', Forall2 same_mailbox l l' -> alike (FFrom l) (FFrom l')
| alike_sender : forall m m', same_mailbox m m' -> alike (FSender m) (FSender m')
| alike_reply_to : forall l l', Forall2 same_address l l' -> alike (FReplyTo l) (FReplyTo l')
| alike_to : forall l l', Forall2 same_address l l' -> alike (FTo l) (FTo l')
| alike_cc : forall l l', Forall2 same_address l l' -> alike (FCc l) (FCc l')
| alike_bcc : forall l l', Forall2 same_address l l' -> alike (FBcc l) (FBcc l')
| alike_keywords : forall l l', Forall2 same_words l l' -> alike (FKeywords l) (FKeywords l')
| alike_trace : forall p r r' l l', Forall2 same_received r r' -> Forall2 same_resent l l' -> alike (FTrace p r l) (FTrace p r' l').

(* the same value, up to the cutting of words or the order of the parameters *)
Definition matching (f f' : field) : Prop := alike f f' \/ same_field f f'.

(* what the crate needs besides the grammar: with mime, no "=?", which might start an
   encoded word; the blanks before the line end, if any, come after a fold (texts
   excepted); an unknown header does not have the name of a known one; no MIME header with
   keywords and parameters (C35 to C38 are about these); trace blocks are below *)
Definition unmarked (mime : bool) (c : bytes) : Prop := mime = true -> forall a b, c <> a ++ bs "=?" ++ b.
Definition tidy_line (c : bytes) : Prop := forall v, c = v ++ CRLF -> tidy v.
Definition regular (E : env) (c : bytes) (f : field) : Prop :=
  unmarked (f_mime E) c /\
  match f with
  | FSubject _ | FComments _ | FContentDescription _ | FMimeVersion _ _ => True
  | FUnknown n _ => forall name, In name (known_names E) -> ~ same_nocase n (bs name)
  | FTrace _ _ _ | FContentType _ _ _ | FContentTransferEncoding _ | FContentDisposition _ => False
  | _ => tidy_line c
  end.
(* the structured headers of RFC 5322, and Content-ID *)
Definition structured_kind (f : field) : Prop :=
  match f with
  | FSubject _ | FComments _ | FUnknown _ _ | FTrace _ _ _ | FMimeVersion _ _ | FContentType _ _ _ | FContentTransferEncoding _ | FContentDescription _ | FContentDisposition _ => False
  | _ => True
  end.
(* the headers of a message, each of them regular, or unambiguous (clear_field of
   CompleteFields.v, which allows for encoded words and MIME parameters) *)
Inductive regular_fields (E : env) : bytes -> list field -> Prop :=
| regular_nil : regular_fields E [] []
| regular_clear : forall c f cs fs, clear_field E c f -> regular_fields E cs fs -> regular_fields E (c ++ cs) (f :: fs)
| regular_cons : forall c f cs fs, field_text E c f -> regular E c f -> regular_fields E cs fs -> regular_fields E (c ++ cs) (f :: fs).

(* ---- trace blocks ---- *)
(* a token of a Received header, which is not an address without angle brackets *)
Inductive bracketed_token (compat : bool) : bytes -> received_token -> Prop :=
| bracketed_word : forall c w, rfc_word c w -> bracketed_token compat c (RWord w)
| bracketed_angle : forall c a, rfc_angle_addr compat c a -> bracketed_token compat c (RAddr a)
| bracketed_domain : forall c d, rfc_domain compat c d -> bracketed_token compat c (RDomain d).
Inductive bracketed_received (compat : bool) : bytes -> list received_token * date_time_t -> Prop :=
| bracketed_intro : forall c l c' d, many_of (bracketed_token compat) c l -> rfc_date_value c' d -> bracketed_received compat (c ++ bs ";" ++ c') (l, d).
(* a header line without blanks before its end, except after a fold *)
Definition on_tidy_line {A} (P : bytes -> A -> Prop) (c : bytes) (a : A) : Prop := P c a /\ tidy_line c.
(* blocks as in field_text, made of such lines and without such addresses *)
Inductive regular_block (E : env) : bytes -> field -> Prop :=
| regular_block_intro : forall c1 p c2 r c3 l, rfc_return (f_compatibility_fixes E) c1 p -> tidy_line c1 ->
    r <> [] -> many_of (on_tidy_line (rfc_header "Received" (bracketed_received (f_compatibility_fixes E)))) c2 r ->
    many_of (on_tidy_line (rfc_resent (f_compatibility_fixes E) (encoded E))) c3 l ->
    unmarked (f_mime E) (c1 ++ c2 ++ c3) -> regular_block E (c1 ++ c2 ++ c3) (FTrace p r l).
(* consecutive blocks that do not read as one (separate of CompleteFields.v) *)
Inductive regular_blocks (E : env) : bytes -> list field -> Prop :=
| regular_blocks_nil : regular_blocks E [] []
| regular_blocks_cons : forall c f cs fs, regular_block E c f -> separate f fs -> regular_blocks E cs fs -> regular_blocks E (c ++ cs) (f :: fs).

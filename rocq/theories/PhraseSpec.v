(* Specification: phrases with encoded words (RFC 2047) and everything made of them, read from left
   to right. RFC 5322 and RFC 2047 allow several readings of "=?utf-8?q?x?=", an encoded word and
   an atom; here an encoded word is read wherever one can be read. What is read may depend on the
   text after it, [rest]. *)
From Verif Require Import Base Time Address Fields Rfc5322 Rfc2047 CodecSpec RfcFields Complete CompleteFields.
Local Open Scope N_scope.

Section Phrases.
Variable tc : charset_id -> bytes -> bytes.
Definition starts_encoded (t : bytes) : Prop := exists e v r, rfc_encoded_word tc e v /\ t = e ++ r.

(* ---- words ---- *)
(* white space in front of a word. The flag is false after an atom or a quoted string, which take
   the comments and the white space after them, and true elsewhere. *)
Definition encoded_gap (k : bool) (s : bytes) : Prop :=
  if k then exists v, rfc_oFWS s v else exists r l v, s = r ++ l /\ rfc_oCFWS r /\ rfc_oFWS l v.
Definition plain_gap (k : bool) (s : bytes) : Prop :=
  if k then rfc_oCFWS s else exists r l, s = r ++ l /\ rfc_oCFWS r /\ rfc_oCFWS l.
(* words up to rest; the second flag is that of the end *)
Inductive read_words (rest : bytes) : bool -> bool -> bytes -> list bytes -> Prop :=
| read_end_encoded : read_words rest true true [] []
| read_end_plain : forall s, rfc_oCFWS s -> read_words rest false false s []
| read_encoded : forall k k' s e v c vs, encoded_gap k s -> rfc_encoded_word tc e v -> read_words rest true k' c vs ->
    read_words rest k k' (s ++ e ++ c) (v :: vs)
| read_atom : forall k k' s a c vs, plain_gap k s -> chars1 rfc_atext a -> (forall x t, c ++ rest = [x] ++ t -> ~ rfc_atext x) ->
    (encoded_gap k s -> ~ starts_encoded (a ++ c ++ rest)) -> read_words rest false k' c vs ->
    read_words rest k k' (s ++ a ++ c) (a :: vs)
| read_quoted : forall k k' s b v c vs, plain_gap k s -> rfc_qbody b v -> read_words rest false k' c vs ->
    read_words rest k k' (s ++ [34] ++ b ++ [34] ++ c) (v :: vs).
(* the flag: the last word is an encoded word *)
Definition read_phrase (rest : bytes) (k : bool) (c : bytes) (vs : list bytes) : Prop := vs <> [] /\ read_words rest true k c vs.

(* ---- mailboxes and groups ---- *)
Variable compat : bool.
Inductive read_mailbox (rest : bytes) : bytes -> mailbox_t -> Prop :=
| read_named : forall k c1 n c2 a, read_phrase (c2 ++ rest) k c1 n -> rfc_angle_addr compat c2 a ->
    read_mailbox rest (c1 ++ c2) {| m_name := Some n; m_address := a |}
| read_angle : forall c a, rfc_angle_addr compat c a -> read_mailbox rest c {| m_name := None; m_address := a |}
| read_plain : forall c a, rfc_addr_spec compat c a ->
    (forall k c1 n c2 a' z, c ++ rest = c1 ++ c2 ++ z -> read_phrase (c2 ++ z) k c1 n -> ~ rfc_angle_addr compat c2 a') ->
    read_mailbox rest c {| m_name := None; m_address := a |}.
(* elements separated by commas *)
Inductive comma_read {A} (P : bytes -> bytes -> A -> Prop) (rest : bytes) : bytes -> list A -> Prop :=
| comma_read_one : forall c a, P rest c a -> comma_read P rest c [a]
| comma_read_more : forall c a cs l, P (bs "," ++ cs ++ rest) c a -> comma_read P rest cs l -> comma_read P rest (c ++ bs "," ++ cs) (a :: l).
Definition read_mailboxes := comma_read read_mailbox.
Inductive read_members (rest : bytes) : bytes -> list mailbox_t -> Prop :=
| read_members_some : forall c l, read_mailboxes rest c l -> read_members rest c l
| read_members_none : forall c, rfc_oCFWS c -> read_members rest c [].
(* a group must not start like an address *)
Inductive read_address (rest : bytes) : bytes -> address_t -> Prop :=
| read_address_mailbox : forall c m, read_mailbox rest c m -> read_address rest c (AMailbox m)
| read_address_group : forall k c1 n c2 l r, read_phrase (bs ":" ++ c2 ++ bs ";" ++ r ++ rest) k c1 n -> read_members (bs ";" ++ r ++ rest) c2 l -> rfc_oCFWS r ->
    (forall c a z, c1 ++ bs ":" ++ c2 ++ bs ";" ++ r ++ rest = c ++ z -> ~ rfc_addr_spec compat c a) ->
    read_address rest (c1 ++ bs ":" ++ c2 ++ bs ";" ++ r) (AGroup (n, l)).
Definition read_addresses := comma_read read_address.
Inductive read_bcc (rest : bytes) : bytes -> list address_t -> Prop :=
| read_bcc_some : forall c l, read_addresses rest c l -> read_bcc rest c l
| read_bcc_none : forall c, rfc_CFWS c -> read_bcc rest c [].
(* phrases separated by commas; the flag is that of the last one *)
Inductive read_keywords (rest : bytes) : bool -> bytes -> list (list bytes) -> Prop :=
| read_keywords_one : forall k c p, read_phrase rest k c p -> read_keywords rest k c [p]
| read_keywords_more : forall k k' c p cs l, read_phrase (bs "," ++ cs ++ rest) k' c p -> read_keywords rest k cs l -> read_keywords rest k (c ++ bs "," ++ cs) (p :: l).
End Phrases.

(* ---- headers ---- *)
Inductive phrase_field (E : env) : bytes -> field -> Prop :=
| phrase_from : forall c l, f_from E = true -> rfc_header "From" (tidily (read_mailboxes (textcode E) (f_compatibility_fixes E) CRLF)) c l -> phrase_field E c (FFrom l)
| phrase_sender : forall c m, f_sender E = true -> rfc_header "Sender" (tidily (read_mailbox (textcode E) (f_compatibility_fixes E) CRLF)) c m -> phrase_field E c (FSender m)
| phrase_reply_to : forall c l, f_reply_to E = true -> rfc_header "Reply-To" (tidily (read_addresses (textcode E) (f_compatibility_fixes E) CRLF)) c l -> phrase_field E c (FReplyTo l)
| phrase_to : forall c l, f_to E = true -> rfc_header "To" (tidily (read_addresses (textcode E) (f_compatibility_fixes E) CRLF)) c l -> phrase_field E c (FTo l)
| phrase_cc : forall c l, f_cc E = true -> rfc_header "Cc" (tidily (read_addresses (textcode E) (f_compatibility_fixes E) CRLF)) c l -> phrase_field E c (FCc l)
| phrase_bcc : forall c l, f_bcc E = true -> rfc_header "Bcc" (tidily (read_bcc (textcode E) (f_compatibility_fixes E) CRLF)) c l -> phrase_field E c (FBcc l)
| phrase_keywords : forall c k l, f_keywords E = true -> rfc_header "Keywords" (tidily (read_keywords (textcode E) CRLF k)) c l -> phrase_field E c (FKeywords l).
Definition with_phrases (f : field) : Prop :=
  match f with FFrom _ | FSender _ | FReplyTo _ | FTo _ | FCc _ | FBcc _ | FKeywords _ => True | _ => False end.
Inductive phrase_resent (E : env) : bytes -> trace_field -> Prop :=
| phrase_resent_date : forall c d, rfc_header "Resent-Date" (tidily rfc_date_value) c d -> phrase_resent E c (TDate d)
| phrase_resent_from : forall c l, rfc_header "Resent-From" (tidily (read_mailboxes (textcode E) (f_compatibility_fixes E) CRLF)) c l -> phrase_resent E c (TFrom l)
| phrase_resent_sender : forall c m, rfc_header "Resent-Sender" (tidily (read_mailbox (textcode E) (f_compatibility_fixes E) CRLF)) c m -> phrase_resent E c (TSender m)
| phrase_resent_to : forall c l, rfc_header "Resent-To" (tidily (read_addresses (textcode E) (f_compatibility_fixes E) CRLF)) c l -> phrase_resent E c (TTo l)
| phrase_resent_cc : forall c l, rfc_header "Resent-Cc" (tidily (read_addresses (textcode E) (f_compatibility_fixes E) CRLF)) c l -> phrase_resent E c (TCc l)
| phrase_resent_bcc : forall c l, rfc_header "Resent-Bcc" (tidily (read_bcc (textcode E) (f_compatibility_fixes E) CRLF)) c l -> phrase_resent E c (TBcc l)
| phrase_resent_id : forall c i, rfc_header "Resent-Message-ID" (tidily (rfc_msg_id (f_compatibility_fixes E))) c i -> phrase_resent E c (TMessageId i).

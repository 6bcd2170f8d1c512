(* Specification: the unambiguous part of the address grammar of Rfc5322.v. The grammar of
   RFC 5322 reads "ab" both as one word and as two, and with RFC 2047 the atom
   "=?utf-8?q?x?=" also as an encoded word; here adjacent atoms must be separated and, with
   mime, an atom must not start like an encoded word. Everything else is as in the RFC. *)
From Verif Require Import Base Time Address Fields Rfc5322 Rfc2047 CodecSpec RfcFields.
Local Open Scope N_scope.

(* with mime: does not start with "=?" *)
Definition not_encoded (mime : bool) (v : bytes) : Prop := mime = true -> forall t, v <> bs "=?" ++ t.

Inductive clear_word (mime : bool) (EW : bytes -> bytes -> Prop) : bytes -> bytes -> Prop :=
| clear_atom : forall c v, rfc_atom c v -> not_encoded mime v -> clear_word mime EW c v
| clear_quoted : forall c v, rfc_quoted_string c v -> clear_word mime EW c v
| clear_encoded : forall w x c v, rfc_oFWS w x -> EW c v -> clear_word mime EW (w ++ c) v.
(* c does not end, or d does not start, with an atom character *)
Definition apart (c d : bytes) : Prop :=
  forall a x y b, c = a ++ [x] -> d = [y] ++ b -> ~ (rfc_atext x /\ rfc_atext y).
Inductive clear_phrase (mime : bool) (EW : bytes -> bytes -> Prop) : bytes -> list bytes -> Prop :=
| clear_phrase_one : forall c v, clear_word mime EW c v -> clear_phrase mime EW c [v]
| clear_phrase_more : forall c v cs l, clear_word mime EW c v -> apart c cs -> clear_phrase mime EW cs l ->
    clear_phrase mime EW (c ++ cs) (v :: l).

(* an addr-spec whose local part does not look like an encoded word *)
Inductive clear_addr_spec (mime compat : bool) : bytes -> email_address -> Prop :=
| clear_dot_atom : forall c1 l c2 d, rfc_dot_atom compat c1 l -> not_encoded mime l -> rfc_domain compat c2 d ->
    clear_addr_spec mime compat (c1 ++ [64] ++ c2) {| a_local_part := l; a_domain := d |}
| clear_quoted_local : forall c1 l c2 d, rfc_quoted_string c1 l -> rfc_domain compat c2 d ->
    clear_addr_spec mime compat (c1 ++ [64] ++ c2) {| a_local_part := l; a_domain := d |}.
Inductive clear_mailbox (mime compat : bool) (EW : bytes -> bytes -> Prop) : bytes -> mailbox_t -> Prop :=
| clear_named : forall c1 n c2 a, clear_phrase mime EW c1 n -> rfc_angle_addr compat c2 a ->
    clear_mailbox mime compat EW (c1 ++ c2) {| m_name := Some n; m_address := a |}
| clear_angle : forall c a, rfc_angle_addr compat c a ->
    clear_mailbox mime compat EW c {| m_name := None; m_address := a |}
| clear_plain : forall c a, clear_addr_spec mime compat c a ->
    clear_mailbox mime compat EW c {| m_name := None; m_address := a |}.
Definition clear_mailbox_list (mime compat : bool) (EW : bytes -> bytes -> Prop) := comma_list (clear_mailbox mime compat EW).
Inductive clear_group_list (mime compat : bool) (EW : bytes -> bytes -> Prop) : bytes -> list mailbox_t -> Prop :=
| clear_group_mailboxes : forall c l, clear_mailbox_list mime compat EW c l -> clear_group_list mime compat EW c l
| clear_group_empty : forall c, rfc_oCFWS c -> clear_group_list mime compat EW c [].
(* RFC 2047 5(3): an encoded word of a phrase consists of letters, digits and some symbols *)
Definition in_phrase (EW : bytes -> bytes -> Prop) (c v : bytes) : Prop := EW c v /\ chars rfc_atext c.
Inductive clear_address (mime compat : bool) (EW : bytes -> bytes -> Prop) : bytes -> address_t -> Prop :=
| clear_address_mailbox : forall c m, clear_mailbox mime compat EW c m -> clear_address mime compat EW c (AMailbox m)
| clear_address_group : forall c1 n c2 l r, clear_phrase mime (in_phrase EW) c1 n -> clear_group_list mime compat EW c2 l -> rfc_oCFWS r ->
    clear_address mime compat EW (c1 ++ [58] ++ c2 ++ [59] ++ r) (AGroup (n, l)).
Definition clear_address_list (mime compat : bool) (EW : bytes -> bytes -> Prop) := comma_list (clear_address mime compat EW).

(* Unstructured text with encoded words, read greedily: after the blanks comes an encoded
   word if one starts there, and everything up to the next blank otherwise. *)
Definition no_word (tc : charset_id -> bytes -> bytes) (a : bytes) : Prop := forall e d r, rfc_encoded_word tc e d -> a <> e ++ r.
Definition no_vchar (t : bytes) : Prop := forall c r, t = [c] ++ r -> ~ rfc_VCHAR c.
Inductive clear_utext (tc : charset_id -> bytes -> bytes) : bool -> bytes -> bytes -> Prop :=
| clear_utext_nil : forall after, clear_utext tc after [] []
| clear_utext_word : forall (after : bool) w v e d t x, rfc_oFWS w v -> rfc_encoded_word tc e d -> clear_utext tc true t x ->
    clear_utext tc after (w ++ e ++ t) ((if after then [] else v) ++ d ++ x)
| clear_utext_run : forall after w v a t x, rfc_oFWS w v -> chars1 rfc_VCHAR a -> no_word tc a -> no_vchar t -> clear_utext tc false t x ->
    clear_utext tc after (w ++ a ++ t) (v ++ a ++ x).
Inductive clear_text (tc : charset_id -> bytes -> bytes) : bytes -> bytes -> Prop :=
| clear_text_intro : forall t v w, clear_utext tc false t v -> chars rfc_WSP w -> clear_text tc (t ++ w) v.
Definition clear_text_value (mime : bool) (tc : charset_id -> bytes -> bytes) (c v : bytes) : Prop :=
  if mime then clear_text tc c v else rfc_unstructured c v.

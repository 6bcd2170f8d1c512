(* Specification, independent of the parser: the (non-obsolete) grammar of RFC 5322 as
   inductive relations between a text and its semantic value. Nothing here mentions the
   model's parsers or character predicates; only the crate's public value types
   (addresses, dates) are used. *)
From Verif Require Import Base Time Address.
Local Open Scope N_scope.

(* ---- characters: RFC 5234 B.1, RFC 5322 3.2.1-3.2.4, 3.4.1, 3.6.8 ---- *)
Definition rfc_WSP (c : byte) : Prop := c = 32 \/ c = 9.
Definition rfc_VCHAR (c : byte) : Prop := 33 <= c <= 126.
Definition rfc_ALPHA (c : byte) : Prop := 65 <= c <= 90 \/ 97 <= c <= 122.
Definition rfc_DIGIT (c : byte) : Prop := 48 <= c <= 57.
Definition rfc_ctext (c : byte) : Prop := 33 <= c <= 39 \/ 42 <= c <= 91 \/ 93 <= c <= 126.
Definition rfc_qtext (c : byte) : Prop := c = 33 \/ 35 <= c <= 91 \/ 93 <= c <= 126.
Definition rfc_dtext (c : byte) : Prop := 33 <= c <= 90 \/ 94 <= c <= 126.
Definition rfc_ftext (c : byte) : Prop := 33 <= c <= 57 \/ 59 <= c <= 126.
(* ALPHA / DIGIT / one of ! # $ % & ' * + - / = ? ^ _ ` { | } ~ *)
Definition rfc_atext (c : byte) : Prop :=
  rfc_ALPHA c \/ rfc_DIGIT c \/
  In c [33; 35; 36; 37; 38; 39; 42; 43; 45; 47; 61; 63; 94; 95; 96; 123; 124; 125; 126].
(* RFC 5322 2.3: body characters *)
Definition rfc_text (c : byte) : Prop := 1 <= c <= 127 /\ c <> 10 /\ c <> 13.

(* strings of at least one / any number of characters of a class *)
Definition chars (P : byte -> Prop) (l : bytes) : Prop := Forall P l.
Definition chars1 (P : byte -> Prop) (l : bytes) : Prop := l <> [] /\ Forall P l.

(* ASCII case folding *)
Definition fold_case (c : byte) : byte := if (65 <=? c) && (c <=? 90) then c + 32 else c.
Definition same_nocase (a b : bytes) : Prop := map fold_case a = map fold_case b.

(* repetition: *P, with the list of values *)
Inductive many_of {A} (P : bytes -> A -> Prop) : bytes -> list A -> Prop :=
| many_nil : many_of P [] []
| many_cons : forall c a cs l, P c a -> many_of P cs l -> many_of P (c ++ cs) (a :: l).

(* P *("," P) *)
Inductive comma_list {A} (P : bytes -> A -> Prop) : bytes -> list A -> Prop :=
| comma_one : forall c a, P c a -> comma_list P c [a]
| comma_more : forall c a cs l, P c a -> comma_list P cs l -> comma_list P (c ++ bs "," ++ cs) (a :: l).

(* ---- 3.2.2 folding white space and comments ---- *)
(* FWS = ([*WSP CRLF] 1*WSP); the value is the text without the CRLF *)
Inductive rfc_FWS : bytes -> bytes -> Prop :=
| FWS_plain : forall w, chars1 rfc_WSP w -> rfc_FWS w w
| FWS_fold : forall w1 w2, chars rfc_WSP w1 -> chars1 rfc_WSP w2 -> rfc_FWS (w1 ++ CRLF ++ w2) (w1 ++ w2).

Inductive rfc_oFWS : bytes -> bytes -> Prop :=
| oFWS_none : rfc_oFWS [] []
| oFWS_some : forall c v, rfc_FWS c v -> rfc_oFWS c v.

(* quoted-pair = "\" (VCHAR / WSP) *)
Inductive rfc_quoted_pair : bytes -> byte -> Prop :=
| quoted_pair_intro : forall c, rfc_VCHAR c \/ rfc_WSP c -> rfc_quoted_pair [92; c] c.

(* comment = "(" *([FWS] ccontent) [FWS] ")"; ccontent = ctext / quoted-pair / comment *)
Inductive rfc_comment : bytes -> Prop :=
| comment_intro : forall b, rfc_cbody b -> rfc_comment ([40] ++ b ++ [41])
with rfc_cbody : bytes -> Prop :=
| cbody_end : forall w v, rfc_oFWS w v -> rfc_cbody w
| cbody_cons : forall w v c b, rfc_oFWS w v -> rfc_ccontent c -> rfc_cbody b -> rfc_cbody (w ++ c ++ b)
with rfc_ccontent : bytes -> Prop :=
| ccontent_text : forall c, rfc_ctext c -> rfc_ccontent [c]
| ccontent_pair : forall t c, rfc_quoted_pair t c -> rfc_ccontent t
| ccontent_comment : forall t, rfc_comment t -> rfc_ccontent t.

(* CFWS = (1*([FWS] comment) [FWS]) / FWS *)
Inductive rfc_comments : bytes -> Prop :=
| comments_one : forall w v c, rfc_oFWS w v -> rfc_comment c -> rfc_comments (w ++ c)
| comments_more : forall w v c t, rfc_oFWS w v -> rfc_comment c -> rfc_comments t -> rfc_comments (w ++ c ++ t).
Inductive rfc_CFWS : bytes -> Prop :=
| CFWS_comments : forall t w v, rfc_comments t -> rfc_oFWS w v -> rfc_CFWS (t ++ w)
| CFWS_fws : forall w v, rfc_FWS w v -> rfc_CFWS w.
Inductive rfc_oCFWS : bytes -> Prop :=
| oCFWS_none : rfc_oCFWS []
| oCFWS_some : forall c, rfc_CFWS c -> rfc_oCFWS c.

(* ---- 3.2.3 atoms ---- *)
Inductive rfc_atom : bytes -> bytes -> Prop :=
| atom_intro : forall l a r, rfc_oCFWS l -> chars1 rfc_atext a -> rfc_oCFWS r -> rfc_atom (l ++ a ++ r) a.

(* dot-atom-text = 1*atext *("." 1*atext). With [compat] (the crate's
   compatibility-fixes feature, not part of the RFC) the later parts may be empty. *)
Inductive rfc_dot_tail (compat : bool) : bytes -> Prop :=
| dot_tail_nil : rfc_dot_tail compat []
| dot_tail_cons : forall a t, chars rfc_atext a -> (compat = true \/ a <> []) -> rfc_dot_tail compat t ->
    rfc_dot_tail compat ([46] ++ a ++ t).
Inductive rfc_dot_atom_text (compat : bool) : bytes -> Prop :=
| dot_atom_text_intro : forall a t, chars1 rfc_atext a -> rfc_dot_tail compat t -> rfc_dot_atom_text compat (a ++ t).
Inductive rfc_dot_atom (compat : bool) : bytes -> bytes -> Prop :=
| dot_atom_intro : forall l a r, rfc_oCFWS l -> rfc_dot_atom_text compat a -> rfc_oCFWS r -> rfc_dot_atom compat (l ++ a ++ r) a.

(* ---- 3.2.4 quoted strings; the value drops the quotes, the backslashes of
   quoted-pairs and the CRLFs of folds ---- *)
Inductive rfc_qcontent : bytes -> byte -> Prop :=
| qcontent_text : forall c, rfc_qtext c -> rfc_qcontent [c] c
| qcontent_pair : forall t c, rfc_quoted_pair t c -> rfc_qcontent t c.
Inductive rfc_qbody : bytes -> bytes -> Prop :=
| qbody_end : forall w v, rfc_oFWS w v -> rfc_qbody w v
| qbody_cons : forall w v t c b x, rfc_oFWS w v -> rfc_qcontent t c -> rfc_qbody b x ->
    rfc_qbody (w ++ t ++ b) (v ++ [c] ++ x).
Inductive rfc_quoted_string : bytes -> bytes -> Prop :=
| quoted_string_intro : forall l b v r, rfc_oCFWS l -> rfc_qbody b v -> rfc_oCFWS r ->
    rfc_quoted_string (l ++ [34] ++ b ++ [34] ++ r) v.

(* ---- 3.2.5 words, phrases, unstructured ---- *)
Inductive rfc_word : bytes -> bytes -> Prop :=
| word_atom : forall c v, rfc_atom c v -> rfc_word c v
| word_quoted : forall c v, rfc_quoted_string c v -> rfc_word c v.

(* phrase = 1*word; RFC 2047 5(3) also allows encoded-words, the relation [EW] *)
Inductive rfc_phrase_word (EW : bytes -> bytes -> Prop) : bytes -> bytes -> Prop :=
| phrase_plain : forall c v, rfc_word c v -> rfc_phrase_word EW c v
| phrase_encoded : forall w x c v, rfc_oFWS w x -> EW c v -> rfc_phrase_word EW (w ++ c) v.
Definition rfc_phrase (EW : bytes -> bytes -> Prop) (c : bytes) (l : list bytes) : Prop :=
  l <> [] /\ many_of (rfc_phrase_word EW) c l.

(* unstructured = *([FWS] VCHAR) *WSP; the value drops the CRLFs of folds and the
   trailing blanks *)
Inductive rfc_utext : bytes -> bytes -> Prop :=
| utext_nil : rfc_utext [] []
| utext_cons : forall w v c t x, rfc_oFWS w v -> rfc_VCHAR c -> rfc_utext t x ->
    rfc_utext (w ++ [c] ++ t) (v ++ [c] ++ x).
Inductive rfc_unstructured : bytes -> bytes -> Prop :=
| unstructured_intro : forall t v w, rfc_utext t v -> chars rfc_WSP w -> rfc_unstructured (t ++ w) v.

(* ---- 3.4 addresses ---- *)
Inductive rfc_local_part (compat : bool) : bytes -> bytes -> Prop :=
| local_dot_atom : forall c v, rfc_dot_atom compat c v -> rfc_local_part compat c v
| local_quoted : forall c v, rfc_quoted_string c v -> rfc_local_part compat c v.

(* domain-literal = [CFWS] "[" *([FWS] dtext) [FWS] "]" [CFWS]; the value is the dtext *)
Inductive rfc_dbody : bytes -> bytes -> Prop :=
| dbody_end : forall w v, rfc_oFWS w v -> rfc_dbody w []
| dbody_cons : forall w v c b x, rfc_oFWS w v -> rfc_dtext c -> rfc_dbody b x ->
    rfc_dbody (w ++ [c] ++ b) ([c] ++ x).
Inductive rfc_domain_literal : bytes -> bytes -> Prop :=
| domain_literal_intro : forall l b v r, rfc_oCFWS l -> rfc_dbody b v -> rfc_oCFWS r ->
    rfc_domain_literal (l ++ [91] ++ b ++ [93] ++ r) v.
Inductive rfc_domain (compat : bool) : bytes -> bytes -> Prop :=
| domain_dot_atom : forall c v, rfc_dot_atom compat c v -> rfc_domain compat c v
| domain_lit : forall c v, rfc_domain_literal c v -> rfc_domain compat c v.

Inductive rfc_addr_spec (compat : bool) : bytes -> email_address -> Prop :=
| addr_spec_intro : forall c1 l c2 d, rfc_local_part compat c1 l -> rfc_domain compat c2 d ->
    rfc_addr_spec compat (c1 ++ [64] ++ c2) {| a_local_part := l; a_domain := d |}.
Inductive rfc_angle_addr (compat : bool) : bytes -> email_address -> Prop :=
| angle_addr_intro : forall l c a r, rfc_oCFWS l -> rfc_addr_spec compat c a -> rfc_oCFWS r ->
    rfc_angle_addr compat (l ++ [60] ++ c ++ [62] ++ r) a.
Inductive rfc_mailbox (compat : bool) (EW : bytes -> bytes -> Prop) : bytes -> mailbox_t -> Prop :=
| mailbox_named : forall c1 n c2 a, rfc_phrase EW c1 n -> rfc_angle_addr compat c2 a ->
    rfc_mailbox compat EW (c1 ++ c2) {| m_name := Some n; m_address := a |}
| mailbox_angle : forall c a, rfc_angle_addr compat c a ->
    rfc_mailbox compat EW c {| m_name := None; m_address := a |}
| mailbox_plain : forall c a, rfc_addr_spec compat c a ->
    rfc_mailbox compat EW c {| m_name := None; m_address := a |}.
Definition rfc_mailbox_list (compat : bool) (EW : bytes -> bytes -> Prop) := comma_list (rfc_mailbox compat EW).
(* group = display-name ":" [group-list] ";" [CFWS]; group-list = mailbox-list / CFWS *)
Inductive rfc_group_list (compat : bool) (EW : bytes -> bytes -> Prop) : bytes -> list mailbox_t -> Prop :=
| group_list_mailboxes : forall c l, rfc_mailbox_list compat EW c l -> rfc_group_list compat EW c l
| group_list_empty : forall c, rfc_oCFWS c -> rfc_group_list compat EW c [].
Inductive rfc_group (compat : bool) (EW : bytes -> bytes -> Prop) : bytes -> list bytes * list mailbox_t -> Prop :=
| group_intro : forall c1 n c2 l r, rfc_phrase EW c1 n -> rfc_group_list compat EW c2 l -> rfc_oCFWS r ->
    rfc_group compat EW (c1 ++ [58] ++ c2 ++ [59] ++ r) (n, l).
Inductive rfc_address (compat : bool) (EW : bytes -> bytes -> Prop) : bytes -> address_t -> Prop :=
| address_mailbox : forall c m, rfc_mailbox compat EW c m -> rfc_address compat EW c (AMailbox m)
| address_group : forall c g, rfc_group compat EW c g -> rfc_address compat EW c (AGroup g).
Definition rfc_address_list (compat : bool) (EW : bytes -> bytes -> Prop) := comma_list (rfc_address compat EW).

(* ---- 3.6.4 message identifiers ---- *)
Inductive rfc_id_right (compat : bool) : bytes -> bytes -> Prop :=
| id_right_atom : forall a, rfc_dot_atom_text compat a -> rfc_id_right compat a a
| id_right_literal : forall d, chars rfc_dtext d -> rfc_id_right compat ([91] ++ d ++ [93]) d.
Inductive rfc_msg_id (compat : bool) : bytes -> bytes * bytes -> Prop :=
| msg_id_intro : forall l a c b r, rfc_oCFWS l -> rfc_dot_atom_text compat a -> rfc_id_right compat c b -> rfc_oCFWS r ->
    rfc_msg_id compat (l ++ [60] ++ a ++ [64] ++ c ++ [62] ++ r) (a, b).

(* ---- 3.3 dates ---- *)
(* the number written by a string of digits *)
Fixpoint number (l : bytes) : N :=
  match l with
  | [] => 0
  | c :: r => (c - 48) * 10 ^ N.of_nat (length r) + number r
  end.
Definition rfc_day_names : list (bytes * day_t) :=
  [ (bs "Mon", Monday); (bs "Tue", Tuesday); (bs "Wed", Wednesday); (bs "Thu", Thursday);
    (bs "Fri", Friday); (bs "Sat", Saturday); (bs "Sun", Sunday) ].
Definition rfc_month_names : list (bytes * month_t) :=
  [ (bs "Jan", January); (bs "Feb", February); (bs "Mar", March); (bs "Apr", April);
    (bs "May", May); (bs "Jun", June); (bs "Jul", July); (bs "Aug", August);
    (bs "Sep", September); (bs "Oct", October); (bs "Nov", November); (bs "Dec", December) ].
Inductive rfc_name {A} (table : list (bytes * A)) : bytes -> A -> Prop :=
| name_intro : forall n c a, In (n, a) table -> same_nocase n c -> rfc_name table c a.
(* digits: between lo and hi of them *)
Definition rfc_digits (lo hi : nat) (c : bytes) (v : N) : Prop :=
  (lo <= length c <= hi)%nat /\ chars rfc_DIGIT c /\ v = number c.
Inductive rfc_day_of_week : bytes -> option day_t -> Prop :=
| day_of_week_none : rfc_day_of_week [] None
| day_of_week_some : forall w v c d, rfc_oFWS w v -> rfc_name rfc_day_names c d ->
    rfc_day_of_week (w ++ c ++ bs ",") (Some d).
Inductive rfc_date : bytes -> date_t -> Prop :=
| date_intro : forall w0 v0 c1 d w1 v1 c2 m w2 v2 c3 y w3 v3,
    rfc_oFWS w0 v0 -> rfc_digits 1 2 c1 d -> rfc_FWS w1 v1 ->
    rfc_name rfc_month_names c2 m ->
    rfc_FWS w2 v2 -> (4 <= length c3)%nat -> chars rfc_DIGIT c3 -> y = number c3 -> rfc_FWS w3 v3 ->
    rfc_date (w0 ++ c1 ++ w1 ++ c2 ++ w2 ++ c3 ++ w3) {| d_day := d; d_month := m; d_year := y |}.
Inductive rfc_time_of_day : bytes -> time_t -> Prop :=
| time_hm : forall c1 h c2 m, rfc_digits 2 2 c1 h -> rfc_digits 2 2 c2 m ->
    rfc_time_of_day (c1 ++ bs ":" ++ c2) {| t_hour := h; t_minute := m; t_second := 0 |}
| time_hms : forall c1 h c2 m c3 s, rfc_digits 2 2 c1 h -> rfc_digits 2 2 c2 m -> rfc_digits 2 2 c3 s ->
    rfc_time_of_day (c1 ++ bs ":" ++ c2 ++ bs ":" ++ c3) {| t_hour := h; t_minute := m; t_second := s |}.
Inductive rfc_zone : bytes -> zone_t -> Prop :=
| zone_intro : forall w v (s : bool) c1 h c2 m, rfc_FWS w v -> rfc_digits 2 2 c1 h -> rfc_digits 2 2 c2 m ->
    rfc_zone (w ++ bs (if s then "+" else "-") ++ c1 ++ c2)
             {| z_sign := s; z_hour_offset := h; z_minute_offset := m |}.
Inductive rfc_date_time : bytes -> date_time_t -> Prop :=
| date_time_intro : forall c0 n c1 d c2 t c3 z c4,
    rfc_day_of_week c0 n -> rfc_date c1 d -> rfc_time_of_day c2 t -> rfc_zone c3 z -> rfc_oCFWS c4 ->
    rfc_date_time (c0 ++ c1 ++ c2 ++ c3 ++ c4)
      {| dt_day_name := n; dt_date := d; dt_time := {| tz_time := t; tz_zone := z |} |}.

(* semantic ranges checked by the crate (RFC 5322 3.3 "Additional Constraints", except
   that the crate also accepts day 0 and requires a year from 1990 that fits usize) *)
Definition date_in_range (d : date_time_t) : Prop :=
  d_day (dt_date d) <= 31 /\ 1990 <= d_year (dt_date d) < 2 ^ 64 /\
  t_hour (tz_time (dt_time d)) <= 23 /\ t_minute (tz_time (dt_time d)) <= 59 /\
  t_second (tz_time (dt_time d)) <= 60 /\
  z_hour_offset (tz_zone (dt_time d)) <= 99 /\ z_minute_offset (tz_zone (dt_time d)) <= 59.

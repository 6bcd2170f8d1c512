(* Specification: how texts, words, addresses, dates and identifiers are written in header
   values, independently of how they are read. *)
From Verif Require Import Base Time Address Rfc5322 CompleteFields.
Local Open Scope N_scope.

(* what follows a header line does not continue it *)
Definition no_blank (i : bytes) : Prop := forall c r, i = [c] ++ r -> ~ rfc_WSP c.
(* printable ASCII and blanks *)
Definition printable (c : byte) : Prop := rfc_VCHAR c \/ rfc_WSP c.

(* ---- folded text ---- *)
(* a line and its continuation lines *)
Definition folded (first : bytes) (more : list bytes) : bytes := first ++ concat (map (fun l => CRLF ++ l) more).
(* a continuation line starts with a blank and is not blank *)
Definition continuation (l : bytes) : Prop := chars printable l /\ (exists b r, l = [b] ++ r /\ rfc_WSP b) /\ Exists rfc_VCHAR l.
(* without the blanks at the end *)
Definition trimmed (x v : bytes) : Prop := exists w, x = v ++ w /\ chars rfc_WSP w /\ forall a b, v = a ++ [b] -> ~ rfc_WSP b.
(* v is the text c with the line folds removed and the blanks at the end dropped *)
Inductive unfolded : bytes -> bytes -> Prop :=
| unfolded_intro : forall first more v, chars printable first -> Forall continuation more -> trimmed (first ++ concat more) v ->
    unfolded (folded first more) v.
(* no encoded word starts in c *)
Definition no_encoded (c : bytes) : Prop := forall a b, c <> a ++ bs "=?" ++ b.

(* ---- quoting ---- *)
(* b is the text v with backslashes before the quotes and backslashes, and before any
   other characters one likes *)
Inductive quoting : bytes -> bytes -> Prop :=
| quoting_nil : quoting [] []
| quoting_plain : forall c b v, printable c -> c <> 34 -> c <> 92 -> quoting b v -> quoting ([c] ++ b) ([c] ++ v)
| quoting_pair : forall c b v, printable c -> quoting b v -> quoting ([92; c] ++ b) ([c] ++ v).
(* the one with the fewest *)
Definition escape (c : byte) : bytes := if (c =? 34) || (c =? 92) then [92; c] else [c].
Definition escaped (v : bytes) : bytes := concat (map escape v).

(* ---- words and addresses ---- *)
(* quoted, or as it is if it is an atom that does not look like an encoded word *)
Inductive written_word : bytes -> bytes -> Prop :=
| bare_word : forall w, chars1 rfc_atext w -> (forall t, w <> bs "=?" ++ t) -> written_word w w
| quoted_word : forall b w, quoting b w -> written_word ([34] ++ b ++ [34]) w.
Inductive written_words : bytes -> list bytes -> Prop :=
| words_one : forall c w, written_word c w -> written_words c [w]
| words_more : forall c w cs l, written_word c w -> written_words cs l -> written_words (c ++ bs " " ++ cs) (w :: l).
Inductive written_local : bytes -> bytes -> Prop :=
| bare_local : forall w, rfc_dot_atom_text false w -> (forall t, w <> bs "=?" ++ t) -> written_local w w
| quoted_local : forall b w, quoting b w -> written_local ([34] ++ b ++ [34]) w.
Inductive written_domain : bytes -> bytes -> Prop :=
| bare_domain : forall d, rfc_dot_atom_text false d -> written_domain d d
| literal_domain : forall d, chars rfc_dtext d -> written_domain ([91] ++ d ++ [93]) d.
Inductive written_address : bytes -> email_address -> Prop :=
| written_address_intro : forall c l c' d, written_local c l -> written_domain c' d ->
    written_address (c ++ bs "@" ++ c') {| a_local_part := l; a_domain := d |}.
Inductive written_mailbox : bytes -> mailbox_t -> Prop :=
| plain_mailbox : forall c a, written_address c a -> written_mailbox c {| m_name := None; m_address := a |}
| angle_mailbox : forall c a, written_address c a -> written_mailbox (bs "<" ++ c ++ bs ">") {| m_name := None; m_address := a |}
| named_mailbox : forall c n c' a, written_words c n -> written_address c' a ->
    written_mailbox (c ++ bs " <" ++ c' ++ bs ">") {| m_name := Some n; m_address := a |}.
Inductive written_list {A} (P : bytes -> A -> Prop) : bytes -> list A -> Prop :=
| list_one : forall c a, P c a -> written_list P c [a]
| list_more : forall c a cs l, P c a -> written_list P cs l -> written_list P (c ++ bs ", " ++ cs) (a :: l).
Inductive written_recipient : bytes -> address_t -> Prop :=
| mailbox_recipient : forall c m, written_mailbox c m -> written_recipient c (AMailbox m)
| empty_group : forall c n, written_words c n -> written_recipient (c ++ bs ":;") (AGroup (n, []))
| group_recipient : forall c n c' l, written_words c n -> written_list written_mailbox c' l ->
    written_recipient (c ++ bs ": " ++ c' ++ bs ";") (AGroup (n, l)).

(* what can be written *)
Definition writable_address (a : email_address) : Prop := chars printable (a_local_part a) /\ chars rfc_dtext (a_domain a).
Definition writable_mailbox (m : mailbox_t) : Prop :=
  writable_address (m_address m) /\ match m_name m with None => True | Some n => n <> [] /\ Forall (chars printable) n end.

Definition writable_recipient (a : address_t) : Prop :=
  match a with
  | AMailbox m => writable_mailbox m
  | AGroup (n, l) => n <> [] /\ Forall (chars printable) n /\ Forall writable_mailbox l
  end.
(* keywords: phrases separated by commas *)
Definition written_keywords : bytes -> list (list bytes) -> Prop := written_list written_words.

(* ---- white space and comments ---- *)
(* i goes on neither the white space and comments r nor a header line: nothing, a visible
   character other than "(", or a line end that r lets be seen as one *)
Inductive delimited (r : bytes) : bytes -> Prop :=
| delimited_nothing : delimited r []
| delimited_char : forall c t, rfc_VCHAR c -> c <> 40 -> delimited r ([c] ++ t)
| delimited_line : forall t, tidy r -> no_blank t -> delimited r (CRLF ++ t).
(* i does not go on a dotted atom *)
Definition no_dot_atom (i : bytes) : Prop := forall c t, i = [c] ++ t -> ~ rfc_atext c /\ c <> 46.

(* ---- dates ---- *)
(* n in decimal, with k digits *)
Fixpoint decimal (k : nat) (n : N) : bytes :=
  match k with
  | O => []
  | S k' => decimal k' (n / 10) ++ [48 + n mod 10]
  end.
Inductive written_day_name : bytes -> option day_t -> Prop :=
| no_day_name : written_day_name [] None
| some_day_name : forall n c d, In (n, d) rfc_day_names -> same_nocase n c -> written_day_name (c ++ bs ", ") (Some d).
Inductive written_second : bytes -> N -> Prop :=
| no_second : written_second [] 0
| some_second : forall s, written_second (bs ":" ++ decimal 2 s) s.
(* [day name ", "] day month year hour:minute[:second] zone; the day with one or two digits,
   the year with four or more *)
Inductive written_date : bytes -> date_time_t -> Prop :=
| written_date_intro : forall c w kd d n c' m ky y h mi c'' s (sg : bool) zh zm,
    written_day_name c w -> (kd = 1 \/ kd = 2)%nat -> d < 10 ^ N.of_nat kd ->
    In (n, m) rfc_month_names -> same_nocase n c' -> (4 <= ky)%nat -> y < 10 ^ N.of_nat ky -> written_second c'' s ->
    written_date (c ++ decimal kd d ++ bs " " ++ c' ++ bs " " ++ decimal ky y ++ bs " " ++ decimal 2 h ++ bs ":" ++ decimal 2 mi ++ c'' ++
                  bs " " ++ bs (if sg then "+" else "-") ++ decimal 2 zh ++ decimal 2 zm)
      {| dt_day_name := w; dt_date := {| d_day := d; d_month := m; d_year := y |};
         dt_time := {| tz_time := {| t_hour := h; t_minute := mi; t_second := s |};
                       tz_zone := {| z_sign := sg; z_hour_offset := zh; z_minute_offset := zm |} |} |}.

(* ---- identifiers ---- *)
Inductive written_id : bytes -> bytes * bytes -> Prop :=
| written_id_intro : forall a c b, rfc_dot_atom_text false a -> written_domain c b -> written_id (bs "<" ++ a ++ bs "@" ++ c ++ bs ">") (a, b).
(* one after the other, blanks between them as one likes *)
Inductive written_ids : bytes -> list (bytes * bytes) -> Prop :=
| ids_one : forall c i, written_id c i -> written_ids c [i]
| ids_more : forall c i w cs l, written_id c i -> chars rfc_WSP w -> written_ids cs l -> written_ids (c ++ w ++ cs) (i :: l).

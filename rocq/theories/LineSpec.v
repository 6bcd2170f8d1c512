(* Specification for C49 and C50: header lines, blocks of them, and emails that differ in the
   unknown headers only. *)
From Verif Require Import Base Time Address MimeFields Fields Message Entity Email Rfc5322 RfcFields EmailSpec.
Local Open Scope N_scope.

(* RFC 5322 2.2: the body of a header, made of printable characters, blanks and line folds *)
Inductive lined : bytes -> Prop :=
| lined_nil : lined []
| lined_char : forall c t, rfc_VCHAR c \/ rfc_WSP c -> lined t -> lined (c :: t)
| lined_fold : forall w t, rfc_WSP w -> lined t -> lined (13 :: 10 :: w :: t).
(* no line of a header body, its last line included, is made of blanks only *)
Definition unblank (t : bytes) : Prop := forall a w b, t ++ CRLF = a ++ CRLF ++ w ++ CRLF ++ b -> ~ chars1 rfc_WSP w.
(* a header: its name and the text after the colon *)
Definition line : Type := bytes * bytes.
Definition line_text (x : line) : bytes := fst x ++ bs ":" ++ snd x ++ CRLF.
Definition block_text (ls : list line) : bytes := concat (map line_text ls).
Definition proper_line (x : line) : Prop := chars1 rfc_ftext (fst x) /\ lined (snd x).

(* the headers of trace blocks, RFC 5322 3.6.6 and 3.6.7 *)
Definition tracing : list string :=
  ["Return-Path"; "Received"; "Resent-Date"; "Resent-From"; "Resent-Sender"; "Resent-To"; "Resent-Cc"; "Resent-Bcc"; "Resent-Message-ID"]%string.
Definition trace_line (x : line) : Prop := exists name, In name tracing /\ same_nocase (fst x) (bs name).
(* a text that starts with no blank, hence does not continue the line before it *)
Definition new_line (i : bytes) : Prop := forall c r, i = c :: r -> ~ rfc_WSP c.
(* a text that starts with a header of a trace block *)
Definition starts_trace (i : bytes) : Prop := exists name n r, In name tracing /\ same_nocase n (bs name) /\ i = n ++ bs ":" ++ r.

(* two lists with the same headers of each name, in the same order *)
Definition has_name {A} (n : bytes) (x : bytes * A) : bool := bytes_eqb (map fold_case n) (map fold_case (fst x)).
Definition same_order {A} (l l' : list (bytes * A)) : Prop := forall n, filter (has_name n) l = filter (has_name n) l'.

(* the email with other unknown headers *)
Definition with_unknown (e : email) (u : list (bytes * bytes)) : email :=
  {| body_of := body_of e; from := from e; sender := sender e; subject := subject e; date_of := date_of e; to := to e; cc := cc e; bcc := bcc e;
     message_id_of := message_id_of e; in_reply_to := in_reply_to e; references := references e; reply_to := reply_to e; comments := comments e; keywords := keywords e;
     trace_of := trace_of e; mime_entity := mime_entity e; unknown_fields := u |}.

(* Specification for C55: the same features compiled without overflow checks and debug
   assertions, and which texts can make a build with them panic. *)
From Verif Require Import Base MimeFields Rfc5322 RfcFields Percent.

(* the release profile of a build: everything else is unchanged *)
Definition release (E : env) : env :=
  {| f_from := f_from E; f_sender := f_sender E; f_subject := f_subject E; f_date := f_date E; f_to := f_to E; f_cc := f_cc E;
     f_bcc := f_bcc E; f_message_id := f_message_id E; f_in_reply_to := f_in_reply_to E; f_references := f_references E;
     f_reply_to := f_reply_to E; f_comments := f_comments E; f_keywords := f_keywords E; f_trace := f_trace E; f_mime := f_mime E;
     f_unrecognized_headers := f_unrecognized_headers E; f_compatibility_fixes := f_compatibility_fixes E; debug := false;
     textcode := textcode E; hash_order := hash_order E |}.

(* [x], the outcome in a checked build, is [y], the outcome in the release build, unless it is a crash *)
Definition unless_crash {A} (x y : res A) : Prop := x = y \/ exists k, x = Crash k.

(* the indexed parameters of one name use every index from 0 to 255 *)
Definition all_indexes (raw : list param) : Prop := exists name, forall k, (k < 256)%N -> segment raw name k <> None.
(* a text starting with the parameters of a Content-Type or Content-Disposition header, one of which
   has a segment for every index; nothing is asked of what follows the parameters *)
Inductive full_header : bytes -> Prop :=
| full_type : forall n w c k s ps raw rest, same_nocase n (bs "Content-Type:") -> rfc_oCFWS w -> rfc_keyword mime_types CUnknown c k -> mime_token s ->
    many_of rfc_param ps raw -> all_indexes raw -> full_header (n ++ w ++ c ++ bs "/" ++ s ++ ps ++ rest)
| full_disposition : forall n w c k ps items rest, same_nocase n (bs "Content-Disposition:") -> rfc_oCFWS w -> rfc_keyword mime_dispositions DUnknown c k ->
    many_of rfc_disposition_item ps items -> all_indexes (params_of items) -> full_header (n ++ w ++ c ++ ps ++ rest).
(* a text with such a header somewhere *)
Definition has_full_header (d : bytes) : Prop := exists pre post, d = pre ++ post /\ full_header post.
Definition semicolons (d : bytes) : nat := count_occ N.eq_dec d 59%N.

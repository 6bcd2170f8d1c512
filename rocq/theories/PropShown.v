(* Property C58: what a header makes of the email, wherever it stands in the mail; and C12, C24, C27,
   C30, C31, C36 for whole mails. *)
From Coq Require Import Lia.
From Verif Require Import Base Utf8 Time Address MimeFields Fields Message Entity Email Envs EnvOk Rfc5322 CodecSpec RfcFields EmailSpec Complete CompleteFields ParamSpec Writers LineSpec
  ShownSpec ShownFacts ShownWriters.
From Verif Require RegularFacts ParamWrite.
Local Open Scope N_scope.
Ltac compute_all := lazymatch goal with |- _ /\ _ => split; compute_all | _ => vm_compute; reflexivity end.
Ltac chars_ok := apply Forall_forall; let x := fresh in let H := fresh in intros x H; vm_compute in H;
  unfold printable, rfc_VCHAR, rfc_WSP, rfc_atext, rfc_ALPHA, rfc_DIGIT, rfc_dtext; cbn [In]; lia.
Ltac is_lined := match goal with |- lined ?t => let t' := eval vm_compute in t in change (lined t') end; repeat first [apply lined_nil|apply lined_fold; [unfold rfc_WSP; lia|]|apply lined_char; [unfold rfc_VCHAR, rfc_WSP; lia|]].
Ltac is_chars := split; [discriminate|]; unfold chars; match goal with |- Forall _ ?t => let t' := eval vm_compute in t in change (Forall rfc_ftext t') end; unfold rfc_ftext; repeat (apply Forall_cons; [lia|]); apply Forall_nil.

(* ---- C58 ---- *)
(* a header that the grammar allows is shown by the email of every accepted mail that contains it,
   whatever is before and after it *)
Theorem C58_shown : forall E pre c f post e, env_ok E -> Forall proper_line pre -> clear_field E c f -> new_line post ->
  parse E (block_text pre ++ c ++ post) = Ok e -> shown f e.
Proof. exact clear_shown. Qed.
Print Assumptions C58_shown.
(* headers as programs write them, in any capitalisation of the name *)
Theorem C58_written : forall E pre name n c f post e, env_ok E -> Forall proper_line pre -> same_nocase n (bs name) -> written_field E name c f -> new_line post ->
  parse E (block_text pre ++ n ++ bs ":" ++ c ++ CRLF ++ post) = Ok e -> shown f e.
Proof. exact written_shown. Qed.
Print Assumptions C58_written.
(* a header that need not be there can be added: its value appears in the email, and nothing else changes *)
Theorem C58_added : forall E pre c post f, env_ok E -> Forall proper_line pre -> clear_field E c f -> new_line post -> (f_trace E = true -> ~ starts_trace post) ->
  forall e, addable f e -> parse E (block_text pre ++ post) = Ok e -> exists e', parse E (block_text pre ++ c ++ post) = Ok e' /\ grown f e e'.
Proof. exact clear_added. Qed.
Print Assumptions C58_added.
(* and removed *)
Theorem C58_removed : forall E pre c post f, env_ok E -> Forall proper_line pre -> clear_field E c f -> new_line post -> (f_trace E = true -> ~ starts_trace post) ->
  forall e', removable f -> parse E (block_text pre ++ c ++ post) = Ok e' -> exists e, parse E (block_text pre ++ post) = Ok e /\ grown f e e'.
Proof. exact clear_removed. Qed.
Print Assumptions C58_removed.
(* ---- C12: the content of a mail is decoded as its headers say ---- *)
Theorem C12_mail : forall E pre n c enc ls b e, env_ok E -> f_mime E = true -> Forall proper_line pre -> same_nocase n (bs "Content-Transfer-Encoding") -> clear_keyword mime_encodings UnknownEnc c enc -> Forall proper_line ls ->
  parse E (block_text pre ++ n ++ bs ": " ++ c ++ CRLF ++ block_text ls ++ CRLF ++ b) = Ok e -> exists r, mime_entity e = Some r /\ transfer_decoded enc b (e_value r).
Proof. exact encoding_mail. Qed.
Print Assumptions C12_mail.
(* ---- C24, C27, C30, C31, C36: what is written in a mail is read back ---- *)
Theorem C24_mail : forall E pre n c d post e, env_ok E -> f_date E = true -> Forall proper_line pre -> same_nocase n (bs "Date") -> written_date c d -> date_in_range d -> new_line post ->
  parse E (block_text pre ++ n ++ bs ": " ++ c ++ CRLF ++ post) = Ok e -> date_of e = Some d.
Proof. exact date_mail. Qed.
Print Assumptions C24_mail.
Theorem C27_from_mail : forall E pre n c l post e, env_ok E -> f_from E = true -> Forall proper_line pre -> same_nocase n (bs "From") -> written_list written_mailbox c l -> new_line post ->
  parse E (block_text pre ++ n ++ bs ": " ++ c ++ CRLF ++ post) = Ok e -> from e = l.
Proof. exact from_mail. Qed.
Print Assumptions C27_from_mail.
Theorem C27_sender_mail : forall E pre n c m post e, env_ok E -> f_sender E = true -> Forall proper_line pre -> same_nocase n (bs "Sender") -> written_mailbox c m -> new_line post ->
  parse E (block_text pre ++ n ++ bs ": " ++ c ++ CRLF ++ post) = Ok e -> sender e = Some m.
Proof. exact sender_mail. Qed.
Print Assumptions C27_sender_mail.
Theorem C27_to_mail : forall E pre n c l post e, env_ok E -> f_to E = true -> Forall proper_line pre -> same_nocase n (bs "To") -> written_list written_recipient c l -> new_line post ->
  parse E (block_text pre ++ n ++ bs ": " ++ c ++ CRLF ++ post) = Ok e -> to e = Some l.
Proof. exact to_mail. Qed.
Print Assumptions C27_to_mail.
Theorem C27_cc_mail : forall E pre n c l post e, env_ok E -> f_cc E = true -> Forall proper_line pre -> same_nocase n (bs "Cc") -> written_list written_recipient c l -> new_line post ->
  parse E (block_text pre ++ n ++ bs ": " ++ c ++ CRLF ++ post) = Ok e -> cc e = Some l.
Proof. exact cc_mail. Qed.
Print Assumptions C27_cc_mail.
Theorem C27_bcc_mail : forall E pre n c l post e, env_ok E -> f_bcc E = true -> Forall proper_line pre -> same_nocase n (bs "Bcc") -> written_list written_recipient c l -> new_line post ->
  parse E (block_text pre ++ n ++ bs ": " ++ c ++ CRLF ++ post) = Ok e -> bcc e = Some l.
Proof. exact bcc_mail. Qed.
Print Assumptions C27_bcc_mail.
Theorem C27_reply_to_mail : forall E pre n c l post e, env_ok E -> f_reply_to E = true -> Forall proper_line pre -> same_nocase n (bs "Reply-To") -> written_list written_recipient c l -> new_line post ->
  parse E (block_text pre ++ n ++ bs ": " ++ c ++ CRLF ++ post) = Ok e -> reply_to e = Some l.
Proof. exact reply_to_mail. Qed.
Print Assumptions C27_reply_to_mail.
Theorem C30_subject_mail : forall E pre n c v post e, env_ok E -> f_subject E = true -> Forall proper_line pre -> same_nocase n (bs "Subject") -> (f_mime E = true -> no_encoded c) -> unfolded c v -> new_line post ->
  parse E (block_text pre ++ n ++ bs ":" ++ c ++ CRLF ++ post) = Ok e -> subject e = Some v.
Proof. exact subject_mail. Qed.
Print Assumptions C30_subject_mail.
Theorem C31_message_id_mail : forall E pre n c i post e, env_ok E -> f_message_id E = true -> Forall proper_line pre -> same_nocase n (bs "Message-ID") -> written_id c i -> new_line post ->
  parse E (block_text pre ++ n ++ bs ": " ++ c ++ CRLF ++ post) = Ok e -> message_id_of e = Some i.
Proof. exact message_id_mail. Qed.
Print Assumptions C31_message_id_mail.
Theorem C31_in_reply_to_mail : forall E pre n c l post e, env_ok E -> f_in_reply_to E = true -> Forall proper_line pre -> same_nocase n (bs "In-Reply-To") -> written_ids c l -> new_line post ->
  parse E (block_text pre ++ n ++ bs ": " ++ c ++ CRLF ++ post) = Ok e -> in_reply_to e = Some l.
Proof. exact in_reply_to_mail. Qed.
Print Assumptions C31_in_reply_to_mail.
Theorem C31_references_mail : forall E pre n c l post e, env_ok E -> f_references E = true -> Forall proper_line pre -> same_nocase n (bs "References") -> written_ids c l -> new_line post ->
  parse E (block_text pre ++ n ++ bs ": " ++ c ++ CRLF ++ post) = Ok e -> references e = Some l.
Proof. exact references_mail. Qed.
Print Assumptions C31_references_mail.
Theorem C36_content_type_mail : forall E pre n c t s ps raw l post e, env_ok E -> f_mime E = true -> Forall proper_line pre -> same_nocase n (bs "Content-Type") ->
  clear_keyword mime_types CUnknown c t -> mime_token s -> many_of written_param ps raw -> (forall k, stands_for (most_segments E) raw k (map_get l k)) -> new_line post ->
  parse E (block_text pre ++ n ++ bs ": " ++ c ++ bs "/" ++ s ++ ps ++ CRLF ++ post) = Ok e ->
  exists r, mime_entity e = Some r /\ e_mime_type r = t /\ e_subtype r = map fold_case s /\ same_map l (e_parameters r).
Proof. exact content_type_mail. Qed.
Print Assumptions C36_content_type_mail.

Definition some_lines : list line := [(bs "X-One", bs " 1"); (bs "From", bs " a@b.c"); (bs "Date", bs " 1 Jan 2020 10:00 +0000")].
Definition last_lines : bytes := bs "Subject: s" ++ CRLF ++ CRLF ++ bs "aGk=".
Definition id_text : bytes := bs "mESSAGE-id: <m@n.o>" ++ CRLF.
Definition encoding_line : bytes := bs "content-transfer-encoding: bASE64" ++ CRLF.
Example C58_example :
  Forall proper_line some_lines /\ new_line last_lines /\ ~ starts_trace last_lines /\
  written_field env_mime "Message-ID" (bs " <m@n.o>") (FMessageId (bs "m", bs "n.o")) /\ same_nocase (bs "mESSAGE-id") (bs "Message-ID") /\
  clear_field env_mime encoding_line (FContentTransferEncoding Base64Enc) /\
  exists e e1 e2 r, parse env_mime (block_text some_lines ++ last_lines) = Ok e /\ addable (FMessageId (bs "m", bs "n.o")) e /\
    parse env_mime (block_text some_lines ++ id_text ++ last_lines) = Ok e1 /\ message_id_of e1 = Some (bs "m", bs "n.o") /\
    parse env_mime (block_text some_lines ++ encoding_line ++ last_lines) = Ok e2 /\ mime_entity e2 = Some r /\ e_value r = bs "hi".
Proof.
  split; [unfold some_lines; do 3 (apply Forall_cons; [split; [is_chars|is_lined]|]); apply Forall_nil|].
  split; [intros c r X; vm_compute in X; injection X as <- _; unfold rfc_WSP; lia|].
  split; [apply without_no_trace; intros name Hn; cbn in Hn; repeat (destruct Hn as [<-|Hn]; [vm_compute; reflexivity|]); destruct Hn|].
  split.
  { apply (written_message_id_field env_mime (bs "<m@n.o>")); [reflexivity|]. apply (written_id_intro (bs "m") (bs "n.o") (bs "n.o")).
    - apply (dot_atom_text_intro _ (bs "m") []); [split; [discriminate|chars_ok]|constructor].
    - apply bare_domain. apply (dot_atom_text_intro _ (bs "n") (bs ".o")); [split; [discriminate|chars_ok]|]. apply (dot_tail_cons _ (bs "o") []); [chars_ok|right; discriminate|constructor]. }
  split; [vm_compute; reflexivity|]. split.
  { apply clear_encoding_field; [reflexivity|]. apply (header_intro "Content-Transfer-Encoding" clear_encoding (bs "content-transfer-encoding") (bs " bASE64") Base64Enc); [reflexivity|].
    apply (clear_encoding_intro (bs " ") (bs "bASE64") Base64Enc []); [apply RegularFacts.one_blank|apply (clear_known _ _ (bs "base64")); [cbn; tauto|reflexivity]|apply ParamWrite.no_inline]. }
  do 4 eexists. compute_all.
Qed.

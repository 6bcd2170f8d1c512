(* C58: headers as programs write them. *)
From Coq Require Import Lia ZifyBool ZifyNat ZifyN Permutation.
From Verif Require Import Base Utf8 CharSets Combinators Whitespace QuotedString Common Time Address Percent MimeFields Fields Message Entity Email Envs
  Rfc5322 Rfc2047 Post CodecSpec RfcFields SoundBase SoundTime SoundAddr TagNoCase ParamSpec ParamProofs SoundFields EmailSpec SoundMessage EmailProofs MessageFacts Steps Complete CompleteFields Forward ForwardText
  ForwardFields ForwardMessage HeaderFacts LocalSpec Local LocalFacts RecaseFacts KeptFacts LinedFacts LessFacts RangeFacts Writers WriteFacts WriteAddr WriteRest ParamWrite LineSpec LineFacts ShownSpec ShownFacts.
Local Open Scope N_scope.

Ltac skip_names Hn := unfold any_field, field_parsers;
  repeat (rewrite cfg_skip by (intros _; apply pmap_err; field_none; eapply header_other; [exact Hn|no_colon|no_colon|reflexivity])).
Ltac hits Hn tac := eexists; (split; [|apply same_refl]); skip_names Hn; apply cfg_hit; [assumption|]; apply pmap_ok; tac.
Lemma written_read : forall E name n c f i, env_ok E -> same_nocase n (bs name) -> written_field E name c f -> no_blank i ->
  exists f', any_field E (n ++ [58] ++ c ++ CRLF ++ i) = Ok (i, f') /\ same_field f f'.
Proof.
  intros E name n c f i HE Hn H Hi. destruct H.
  - hits Hn ltac:(now apply date_read).
  - hits Hn ltac:(now apply from_read).
  - hits Hn ltac:(now apply sender_read).
  - hits Hn ltac:(now apply reply_to_read).
  - hits Hn ltac:(now apply to_read).
  - hits Hn ltac:(now apply cc_read).
  - hits Hn ltac:(now apply bcc_read).
  - hits Hn ltac:(now apply message_id_read).
  - hits Hn ltac:(now apply in_reply_to_read).
  - hits Hn ltac:(now apply references_read).
  - hits Hn ltac:(now apply keywords_read).
  - hits Hn ltac:(now apply subject_unfolded).
  - hits Hn ltac:(now apply comments_unfolded).
  - destruct (params_read E n c t s ps raw (map_get l) i (ok_hash E HE) Hn) as (l' & R & Hl); auto. exists (FContentType t (map fold_case s) l'). split; [|constructor; intros k; now rewrite Hl].
    skip_names Hn. apply cfg_hit; [assumption|]. apply (pmap_ok _ _ (fun '(t, s, p) => FContentType t s p) (content_type E) _ i (t, map fold_case s, l')).
    refine (eq_trans _ R). f_equal. rewrite <- !app_assoc. reflexivity.
  - destruct (any_field_forward E (n ++ [58] ++ (bs " " ++ c ++ []) ++ CRLF) (FContentTransferEncoding enc) i (ok_hash E HE)) as (f' & F & S).
    + constructor; [assumption|]. constructor; [exact Hn|]. econstructor; eauto. apply no_inline.
    + now apply no_blank_ends.
    + exists f'. split; [|exact S]. refine (eq_trans _ F). f_equal. rewrite app_nil_r, <- !app_assoc. reflexivity.
Qed.
Lemma written_no_trace : forall E name n c f i, same_nocase n (bs name) -> written_field E name c f -> ~ starts_trace (n ++ [58] ++ c ++ i).
Proof.
  intros E name n c f i Hn H. apply without_no_trace. intros other Ho. cbn in Ho.
  destruct H; repeat (destruct Ho as [<-|Ho]; [eapply header_other; [exact Hn|no_colon|no_colon|reflexivity]|]); destruct Ho.
Qed.
Lemma same_shown : forall f f' e, same_field f f' -> shown f' e -> shown f e.
Proof.
  intros f f' e S X. destruct S as [f|t s l l' S|k fn c' m r l l' S]; [exact X|..]; cbn [shown] in *.
  - destruct X as (r & X1 & X2 & X3 & X4). exists r. split; [exact X1|]. split; [exact X2|]. split; [exact X3|]. intros n. rewrite S. apply X4.
  - destruct X as (r' & d' & X1 & X2 & X3). exists r', d'. split; [exact X1|]. split; [exact X2|]. inversion X3; subst. constructor. intros n. etransitivity; [apply S|]. auto.
Qed.
Theorem written_shown : forall E pre name n c f post e, env_ok E -> Forall proper_line pre -> same_nocase n (bs name) -> written_field E name c f -> new_line post ->
  parse E (block_text pre ++ n ++ bs ":" ++ c ++ CRLF ++ post) = Ok e -> shown f e.
Proof.
  intros E pre name n c f post e HE Hp Hn Hc Hi H. destruct (written_read E name n c f post HE Hn Hc Hi) as (f' & F & S). apply (same_shown f f' e S).
  apply (field_shown E pre (n ++ [58] ++ c ++ CRLF) post f' HE Hp).
  - rewrite <- !app_assoc. exact F.
  - intros _. rewrite <- !app_assoc. eapply written_no_trace; eauto.
  - rewrite <- !app_assoc. exact H.
Qed.
Theorem date_mail : forall E pre n c d post e, env_ok E -> f_date E = true -> Forall proper_line pre -> same_nocase n (bs "Date") -> written_date c d -> date_in_range d -> new_line post ->
  parse E (block_text pre ++ n ++ bs ": " ++ c ++ CRLF ++ post) = Ok e -> date_of e = Some d.
Proof. intros E pre n c d post e HE HF Hp Hn Hc Hd Hi H. apply (written_shown E pre "Date" n (bs " " ++ c) (FDate d) post e); auto. now constructor. Qed.
Theorem from_mail : forall E pre n c l post e, env_ok E -> f_from E = true -> Forall proper_line pre -> same_nocase n (bs "From") -> written_list written_mailbox c l -> new_line post ->
  parse E (block_text pre ++ n ++ bs ": " ++ c ++ CRLF ++ post) = Ok e -> from e = l.
Proof. intros E pre n c d post e HE HF Hp Hn Hc Hi H. apply (written_shown E pre "From" n (bs " " ++ c) (FFrom d) post e); auto. now constructor. Qed.
Theorem sender_mail : forall E pre n c m post e, env_ok E -> f_sender E = true -> Forall proper_line pre -> same_nocase n (bs "Sender") -> written_mailbox c m -> new_line post ->
  parse E (block_text pre ++ n ++ bs ": " ++ c ++ CRLF ++ post) = Ok e -> sender e = Some m.
Proof. intros E pre n c d post e HE HF Hp Hn Hc Hi H. apply (written_shown E pre "Sender" n (bs " " ++ c) (FSender d) post e); auto. now constructor. Qed.
Theorem to_mail : forall E pre n c l post e, env_ok E -> f_to E = true -> Forall proper_line pre -> same_nocase n (bs "To") -> written_list written_recipient c l -> new_line post ->
  parse E (block_text pre ++ n ++ bs ": " ++ c ++ CRLF ++ post) = Ok e -> to e = Some l.
Proof. intros E pre n c d post e HE HF Hp Hn Hc Hi H. apply (written_shown E pre "To" n (bs " " ++ c) (FTo d) post e); auto. now constructor. Qed.
Theorem cc_mail : forall E pre n c l post e, env_ok E -> f_cc E = true -> Forall proper_line pre -> same_nocase n (bs "Cc") -> written_list written_recipient c l -> new_line post ->
  parse E (block_text pre ++ n ++ bs ": " ++ c ++ CRLF ++ post) = Ok e -> cc e = Some l.
Proof. intros E pre n c d post e HE HF Hp Hn Hc Hi H. apply (written_shown E pre "Cc" n (bs " " ++ c) (FCc d) post e); auto. now constructor. Qed.
Theorem bcc_mail : forall E pre n c l post e, env_ok E -> f_bcc E = true -> Forall proper_line pre -> same_nocase n (bs "Bcc") -> written_list written_recipient c l -> new_line post ->
  parse E (block_text pre ++ n ++ bs ": " ++ c ++ CRLF ++ post) = Ok e -> bcc e = Some l.
Proof. intros E pre n c d post e HE HF Hp Hn Hc Hi H. apply (written_shown E pre "Bcc" n (bs " " ++ c) (FBcc d) post e); auto. now constructor. Qed.
Theorem reply_to_mail : forall E pre n c l post e, env_ok E -> f_reply_to E = true -> Forall proper_line pre -> same_nocase n (bs "Reply-To") -> written_list written_recipient c l -> new_line post ->
  parse E (block_text pre ++ n ++ bs ": " ++ c ++ CRLF ++ post) = Ok e -> reply_to e = Some l.
Proof. intros E pre n c d post e HE HF Hp Hn Hc Hi H. apply (written_shown E pre "Reply-To" n (bs " " ++ c) (FReplyTo d) post e); auto. now constructor. Qed.
Theorem message_id_mail : forall E pre n c i post e, env_ok E -> f_message_id E = true -> Forall proper_line pre -> same_nocase n (bs "Message-ID") -> written_id c i -> new_line post ->
  parse E (block_text pre ++ n ++ bs ": " ++ c ++ CRLF ++ post) = Ok e -> message_id_of e = Some i.
Proof. intros E pre n c d post e HE HF Hp Hn Hc Hi H. apply (written_shown E pre "Message-ID" n (bs " " ++ c) (FMessageId d) post e); auto. now constructor. Qed.
Theorem in_reply_to_mail : forall E pre n c l post e, env_ok E -> f_in_reply_to E = true -> Forall proper_line pre -> same_nocase n (bs "In-Reply-To") -> written_ids c l -> new_line post ->
  parse E (block_text pre ++ n ++ bs ": " ++ c ++ CRLF ++ post) = Ok e -> in_reply_to e = Some l.
Proof. intros E pre n c d post e HE HF Hp Hn Hc Hi H. apply (written_shown E pre "In-Reply-To" n (bs " " ++ c) (FInReplyTo d) post e); auto. now constructor. Qed.
Theorem references_mail : forall E pre n c l post e, env_ok E -> f_references E = true -> Forall proper_line pre -> same_nocase n (bs "References") -> written_ids c l -> new_line post ->
  parse E (block_text pre ++ n ++ bs ": " ++ c ++ CRLF ++ post) = Ok e -> references e = Some l.
Proof. intros E pre n c d post e HE HF Hp Hn Hc Hi H. apply (written_shown E pre "References" n (bs " " ++ c) (FReferences d) post e); auto. now constructor. Qed.
Theorem subject_mail : forall E pre n c v post e, env_ok E -> f_subject E = true -> Forall proper_line pre -> same_nocase n (bs "Subject") -> (f_mime E = true -> no_encoded c) -> unfolded c v -> new_line post ->
  parse E (block_text pre ++ n ++ bs ":" ++ c ++ CRLF ++ post) = Ok e -> subject e = Some v.
Proof. intros E pre n c d post e HE HF Hp Hn Hc Hu Hi H. apply (written_shown E pre "Subject" n c (FSubject d) post e); auto. now constructor. Qed.
Theorem content_type_mail : forall E pre n c t s ps raw l post e, env_ok E -> f_mime E = true -> Forall proper_line pre -> same_nocase n (bs "Content-Type") ->
  clear_keyword mime_types CUnknown c t -> mime_token s -> many_of written_param ps raw -> (forall k, stands_for (most_segments E) raw k (map_get l k)) -> new_line post ->
  parse E (block_text pre ++ n ++ bs ": " ++ c ++ bs "/" ++ s ++ ps ++ CRLF ++ post) = Ok e ->
  exists r, mime_entity e = Some r /\ e_mime_type r = t /\ e_subtype r = map fold_case s /\ same_map l (e_parameters r).
Proof.
  intros E pre n c t s ps raw l post e HE HF Hp Hn Hc Hs Hps Hl Hi H. apply (written_shown E pre "Content-Type" n (bs " " ++ c ++ bs "/" ++ s ++ ps) (FContentType t (map fold_case s) l) post e); auto.
  - econstructor; eauto.
  - rewrite <- !app_assoc. exact H.
Qed.
Theorem encoding_mail : forall E pre n c enc ls b e, env_ok E -> f_mime E = true -> Forall proper_line pre -> same_nocase n (bs "Content-Transfer-Encoding") -> clear_keyword mime_encodings UnknownEnc c enc -> Forall proper_line ls ->
  parse E (block_text pre ++ n ++ bs ": " ++ c ++ CRLF ++ block_text ls ++ CRLF ++ b) = Ok e -> exists r, mime_entity e = Some r /\ transfer_decoded enc b (e_value r).
Proof.
  intros E pre n c enc ls b e HE HM Hp Hn Hc Hl H. apply (clear_decoded E pre (n ++ [58] ++ (bs " " ++ c ++ []) ++ CRLF) enc ls b e HE HM Hp); [|exact Hl|].
  - constructor; [assumption|]. constructor; [exact Hn|]. econstructor; eauto. apply no_inline.
  - rewrite app_nil_r, <- !app_assoc. exact H.
Qed.

(* The parsers of single headers do not depend on which header features are enabled. *)
From Coq Require Import Permutation.
From Verif Require Import Base PercentProofs Base64 QuotedPrintable QPProofs EncodedWord Whitespace QuotedString Common Time Address Utf8 Combinators Charset Percent MimeFields Fields OrderFacts.

Section Same.
Variables (a1 a2 a3 a4 a5 a6 a7 a8 a9 a10 a11 a12 a13 a14 y1 y2 y3 y4 y5 y6 y7 y8 y9 y10 y11 y12 y13 y14 fm fu fc fd : bool) (tc : charset_id -> bytes -> bytes) (h : list bytes -> list bytes).
Let A := {| f_from := a1; f_sender := a2; f_subject := a3; f_date := a4; f_to := a5; f_cc := a6; f_bcc := a7; f_message_id := a8; f_in_reply_to := a9; f_references := a10; f_reply_to := a11;
  f_comments := a12; f_keywords := a13; f_trace := a14; f_mime := fm; f_unrecognized_headers := fu; f_compatibility_fixes := fc; debug := fd; textcode := tc; hash_order := h |}.
Let B := {| f_from := y1; f_sender := y2; f_subject := y3; f_date := y4; f_to := y5; f_cc := y6; f_bcc := y7; f_message_id := y8; f_in_reply_to := y9; f_references := y10; f_reply_to := y11;
  f_comments := y12; f_keywords := y13; f_trace := y14; f_mime := fm; f_unrecognized_headers := fu; f_compatibility_fixes := fc; debug := fd; textcode := tc; hash_order := h |}.
Lemma decode_percents_less : forall ps i, decode_percents A i ps = decode_percents B i ps.
Proof. induction ps as [|p ps IH]; intros i; [reflexivity|]. cbn [decode_percents]. change (decode_percent A i p) with (decode_percent B i p). destruct (decode_percent B i p); cbn [bind]; auto. Qed.
Lemma decode_parameter_less : forall i c, decode_parameter A i c = decode_parameter B i c.
Proof.
  intros i c. unfold decode_parameter. destruct (find_charset c) as [k|]; [|reflexivity]. cbv zeta. rewrite decode_percents_less.
  destruct (decode_percents B i (rev (percents_from 0 i))); cbn [bind]; auto.
Qed.
Lemma next_segments_less : forall n values cs idx v, next_segments A n values cs idx v = next_segments B n values cs idx v.
Proof.
  induction n as [|n IH]; intros values cs idx v; [reflexivity|]. cbn [next_segments]. destruct (imap_remove values idx) as [[[e nv] values']|]; [|reflexivity].
  assert (X : forall y, (let* idx := u8_add A idx 1 in next_segments A n values' cs idx y) = (let* idx := u8_add B idx 1 in next_segments B n values' cs idx y)).
  { intros y. change (u8_add A idx 1) with (u8_add B idx 1). destruct (u8_add B idx 1); cbn [bind]; auto. }
  destruct e, cs as [c|]; cbn [bind]; try apply X. rewrite decode_parameter_less. destruct (decode_parameter B nv c); cbn [bind]; auto.
Qed.
Lemma join_segments_less : forall values, join_segments A values = join_segments B values.
Proof.
  intros values. unfold join_segments. destruct (imap_remove values 0) as [[[e v] values']|]; [|reflexivity].
  assert (X : first_segment A e v = first_segment B e v).
  { unfold first_segment. destruct e; [|reflexivity]. destruct (take_while (fun c => negb (c =? 39)%N) v) as [[v1 c1]| |]; cbn [bind]; auto. cbv zeta.
    destruct (tag (bs "'") _ v1) as [[v2 c2]| |]; cbn [bind]; auto. destruct (take_while (fun c => negb (c =? 39)%N) v2) as [[v3 c3]| |]; cbn [bind]; auto.
    destruct (tag (bs "'") _ v3) as [[v4 c4]| |]; cbn [bind]; auto. now rewrite decode_parameter_less. }
  rewrite X. destruct (first_segment B e v) as [[v1 cs]| |]; cbn [bind]; auto. now rewrite next_segments_less.
Qed.

Lemma join_all_less : forall l complex ps, join_all A l complex ps = join_all B l complex ps.
Proof.
  induction l as [|n l IH]; intros complex ps; [reflexivity|]. cbn [join_all]. destruct (map_get complex n) as [vs|]; [|apply IH]. apply bind_same; [apply join_segments_less|]. intros v. apply IH.
Qed.
Lemma collect_less : forall raw, collect_parameters A raw = collect_parameters B raw.
Proof. intros raw. unfold collect_parameters. destruct (split_parameters raw [] []) as [plain complex]. apply join_all_less. Qed.
Lemma content_type_less : same_parser (content_type A) (content_type B).
Proof.
  intros i. unfold content_type. do 5 (apply bind_same; [reflexivity|]; intros [? ?]). cbv zeta. apply bind_same; [reflexivity|]. intros [i6 raw].
  apply bind_same; [apply collect_less|]. reflexivity.
Qed.
Lemma disposition_less : same_parser (content_disposition A) (content_disposition B).
Proof. intros i. unfold content_disposition. do 4 (apply bind_same; [reflexivity|]; intros [? ?]). apply bind_same; [apply collect_less|]. reflexivity. Qed.
Lemma header_less : forall T e1 e2 m (p q : parser T) m', same_parser p q -> same_parser (header A e1 e2 m p m') (header B e1 e2 m q m').
Proof. intros T e1 e2 m p q m' H i. unfold header. apply bind_same; [reflexivity|]. intros [i1 u]. now rewrite H. Qed.
Lemma resents_less : forall T m (p q : parser T), same_parser p q -> same_parser (resent A m p) (resent B m q).
Proof. intros T m p q H i. unfold resent. apply bind_same; [reflexivity|]. intros [i1 u]. apply H. Qed.
Lemma decode_base64_less : forall d, decode_base64 A d = decode_base64 B d.
Proof.
  intros d. unfold decode_base64. generalize (S (length d)) as n. generalize 0 at 1 3 as i. generalize 0 as o. intros o i n. revert d i o. induction n as [|n IH]; intros d i o; [reflexivity|]. cbn [decode_base64_loop]. cbv zeta.
  apply bind_same; [reflexivity|]. intros [[i1 o1] [b1|]]; [|reflexivity]. apply bind_same; [reflexivity|]. intros [[i2 o2] [b2|]]; [|reflexivity].
  apply bind_same; [reflexivity|]. intros [[i3 o3] [b3|]]; [|reflexivity]. apply bind_same; [reflexivity|]. intros [[i4 o4] [b4|]]; [|reflexivity].
  apply bind_same; [reflexivity|]. intros b4'. apply bind_same; [reflexivity|]. intros p. apply bind_same; [reflexivity|]. intros v. apply bind_same; [reflexivity|]. intros d'.
  apply bind_same; [reflexivity|]. intros [d2 o5]. apply IH.
Qed.
Lemma encoded_word_less : same_parser (encoded_word A) (encoded_word B).
Proof.
  intros i. unfold encoded_word. do 8 (apply bind_same; [reflexivity|]; intros [? ?]).
  apply bind_same; [now rewrite decode_base64_less, !decode_header_qp_spec|]. intros v. apply bind_same; [|reflexivity]. destruct (find_charset _); reflexivity.
Qed.
Lemma phrase_word_less : same_parser (phrase_word A) (phrase_word B).
Proof.
  unfold phrase_word. change (f_mime A) with (f_mime B). destruct (f_mime B); [|intros i; reflexivity]. apply match_same. constructor; [|repeat constructor; intros i; reflexivity].
  intros i. apply bind_same; [reflexivity|]. intros [i1 u]. apply encoded_word_less.
Qed.
Lemma phrase_less : same_parser (phrase A) (phrase B).
Proof. apply many1_same, phrase_word_less. Qed.
Lemma mime_unstructured_less : same_parser (mime_unstructured A) (mime_unstructured B).
Proof.
  assert (L : forall n f i, mime_unstructured_loop A n f i = mime_unstructured_loop B n f i).
  { induction n as [|n IH]; intros f i; [reflexivity|]. cbn [mime_unstructured_loop]. apply attempt_same; [|intros [i1 [t f']]; now rewrite IH|reflexivity].
    unfold mime_unstructured_step. apply bind_same; [reflexivity|]. intros [i1 w]. apply attempt_same; [apply encoded_word_less|reflexivity|reflexivity]. }
  intros i. unfold mime_unstructured. now rewrite L.
Qed.
Lemma name_addr_less : same_parser (name_addr A) (name_addr B).
Proof. intros i. unfold name_addr. apply bind_same; [apply optional_same, phrase_less|]. intros [i1 n]. reflexivity. Qed.
Lemma mailbox_less : same_parser (mailbox A) (mailbox B).
Proof. apply match_same. constructor; [apply name_addr_less|]. constructor; [intros i; reflexivity|constructor]. Qed.
Lemma mailbox_list_less : same_parser (mailbox_list A) (mailbox_list B).
Proof. intros i. unfold mailbox_list. apply bind_same; [apply mailbox_less|]. intros [i1 m]. apply bind_same; [apply many_same, prefixed_same, mailbox_less|reflexivity]. Qed.
Lemma group_less : same_parser (group A) (group B).
Proof.
  intros i. unfold group. apply bind_same; [apply phrase_less|]. intros [i1 n]. apply bind_same; [reflexivity|]. intros [i2 u]. apply bind_same; [|reflexivity].
  now rewrite mailbox_list_less.
Qed.
Lemma address_less : same_parser (address A) (address B).
Proof. intros i. unfold address. apply attempt_same; [apply mailbox_less|reflexivity|]. apply attempt_same; [apply group_less|reflexivity|reflexivity]. Qed.
Lemma address_list_less : same_parser (address_list A) (address_list B).
Proof. intros i. unfold address_list. apply bind_same; [apply address_less|]. intros [i1 m]. apply bind_same; [apply many_same, prefixed_same, address_less|reflexivity]. Qed.
Lemma bcc_less : same_parser (bcc_value A) (bcc_value B).
Proof. intros i. unfold bcc_value. apply attempt_same; [apply address_list_less|reflexivity|reflexivity]. Qed.
Lemma text_less : same_parser (text_value A) (text_value B).
Proof. unfold text_value. change (f_mime A) with (f_mime B). destruct (f_mime B); [apply mime_unstructured_less|intros i; reflexivity]. Qed.
Lemma keywords_less : same_parser (keywords_value A) (keywords_value B).
Proof. intros i. unfold keywords_value. apply bind_same; [apply phrase_less|]. intros [i1 m]. apply bind_same; [apply many_same, prefixed_same, phrase_less|reflexivity]. Qed.
Lemma unknown_less : same_parser (unknown A) (unknown B).
Proof.
  intros i. unfold unknown. do 2 (apply bind_same; [reflexivity|]; intros [? ?]). apply bind_same; [|reflexivity].
  change (f_unrecognized_headers A) with (f_unrecognized_headers B). destruct (f_unrecognized_headers B); [apply mime_unstructured_less|reflexivity].
Qed.
Lemma description_less : same_parser (content_description A) (content_description B).
Proof. intros i. unfold content_description. apply bind_same; [reflexivity|]. intros [i1 u]. apply bind_same; [apply mime_unstructured_less|reflexivity]. Qed.
Lemma resent_less : same_parser (resent_field A) (resent_field B).
Proof.
  apply match_same. constructor; [intros i; reflexivity|]. constructor; [apply pmap_same, resents_less, header_less, mailbox_list_less|].
  constructor; [apply pmap_same, resents_less, header_less, mailbox_less|]. constructor; [apply pmap_same, resents_less, header_less, address_list_less|].
  constructor; [apply pmap_same, resents_less, header_less, address_list_less|]. constructor; [apply pmap_same, resents_less, header_less, bcc_less|].
  constructor; [intros i; reflexivity|constructor].
Qed.
Lemma block_less : same_parser (trace_block A) (trace_block B).
Proof. intros i. unfold trace_block. apply bind_same; [reflexivity|]. intros [i1 [p r]]. apply bind_same; [apply many_same, resent_less|reflexivity]. Qed.
Lemma field_from_less : same_parser (field_from A) (field_from B). Proof. unfold field_from. apply header_less. exact mailbox_list_less. Qed.
Lemma field_sender_less : same_parser (field_sender A) (field_sender B). Proof. unfold field_sender. apply header_less. exact mailbox_less. Qed.
Lemma field_reply_to_less : same_parser (field_reply_to A) (field_reply_to B). Proof. unfold field_reply_to. apply header_less. exact address_list_less. Qed.
Lemma field_to_less : same_parser (field_to A) (field_to B). Proof. unfold field_to. apply header_less. exact address_list_less. Qed.
Lemma field_cc_less : same_parser (field_cc A) (field_cc B). Proof. unfold field_cc. apply header_less. exact address_list_less. Qed.
Lemma field_bcc_less : same_parser (field_bcc A) (field_bcc B). Proof. unfold field_bcc. apply header_less. exact bcc_less. Qed.
Lemma field_subject_less : same_parser (field_subject A) (field_subject B). Proof. unfold field_subject. apply header_less. exact text_less. Qed.
Lemma field_comments_less : same_parser (field_comments A) (field_comments B). Proof. unfold field_comments. apply header_less. exact text_less. Qed.
Lemma field_keywords_less : same_parser (field_keywords A) (field_keywords B). Proof. unfold field_keywords. apply header_less. exact keywords_less. Qed.
Lemma field_date_less : same_parser (field_date A) (field_date B). Proof. intros i. reflexivity. Qed.
Lemma field_message_id_less : same_parser (field_message_id A) (field_message_id B). Proof. intros i. reflexivity. Qed.
Lemma field_in_reply_to_less : same_parser (field_in_reply_to A) (field_in_reply_to B). Proof. intros i. reflexivity. Qed.
Lemma field_references_less : same_parser (field_references A) (field_references B). Proof. intros i. reflexivity. Qed.
Lemma mime_version_less : same_parser (mime_version A) (mime_version B). Proof. intros i. reflexivity. Qed.
Lemma content_transfer_encoding_less : same_parser (content_transfer_encoding A) (content_transfer_encoding B). Proof. intros i. reflexivity. Qed.
Lemma content_id_less : same_parser (content_id A) (content_id B). Proof. intros i. reflexivity. Qed.
End Same.

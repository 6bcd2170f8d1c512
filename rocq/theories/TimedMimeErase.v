(* The counting parser of TimedMime.v returns what the parser returns. *)
From Verif Require Import Base Utf8 CharSets Combinators Whitespace QuotedString Base64 QuotedPrintable EncodedWord Charset Percent Common Time Address MimeFields Fields Message Entity Email Timed TimedErase TimedCodec TimedCodecFacts TimedSearch TimedMime.

Section Mime.
Variable E : env.
Hypothesis HM : f_mime E = true.
Hint Resolve e_field_date e_field_message_id e_field_in_reply_to e_field_references e_trace : erase.
Lemma o_ew_charset : erases m_ew_charset ew_charset.
Proof. intros i. unfold m_ew_charset, ew_charset. go. Qed.
Lemma o_ew_encoding : erases m_ew_encoding ew_encoding.
Proof. intros i. unfold m_ew_encoding, ew_encoding. go. Qed.
Hint Resolve o_ew_charset o_ew_encoding : erase.
Lemma o_encoded_word : erases (m_encoded_word E) (encoded_word E).
Proof.
  intros i. unfold m_encoded_word, encoded_word.
  apply same_bind; [go|intros [i1 u1]]. apply same_bind; [go|intros [i2 charset]]. apply same_bind; [go|intros [i3 u3]].
  apply same_bind; [go|intros [i4 u4]]. apply same_bind; [go|intros [i5 encoding]]. apply same_bind; [go|intros [i6 u6]].
  apply same_bind; [apply e_take_while1|intros [i7 data]]. apply same_bind; [go|intros [i8 u8]]. apply same_step_bind.
  apply same_bind.
  - destruct (bytes_eqb encoding _); [apply decode_base64_cost|]. destruct (bytes_eqb encoding _); [apply decode_header_qp_cost|apply same_err].
  - intros value. apply same_bind; [|intros; apply same_ok]. destruct (find_charset charset); [reflexivity|apply same_err].
Qed.
Hint Resolve o_encoded_word : erase.
Lemma o_phrase : erases (m_phrase E) (phrase E).
Proof.
  unfold m_phrase, phrase, m_phrase_word, phrase_word. rewrite HM. apply e_many1. apply e_match_cons; [|comb]. intros i. go.
Qed.
Hint Resolve o_phrase : erase.
Lemma o_unstructured_step : forall b, erases (m_unstructured_step E b) (mime_unstructured_step E b).
Proof. intros b i. unfold m_unstructured_step, mime_unstructured_step. go. Qed.
Lemma o_unstructured_loop : forall n b i, same (m_unstructured_loop E n b i) (mime_unstructured_loop E n b i).
Proof.
  induction n as [|n IH]; intros b i; [reflexivity|]. cbn [m_unstructured_loop mime_unstructured_loop]. apply same_step_bind.
  apply same_attempt; [apply o_unstructured_step| |apply same_ok]. intros [j [text flag]]. apply same_bind; [apply IH|]. intros [r rest]. apply same_step.
Qed.
Lemma o_unstructured : erases (m_unstructured E) (mime_unstructured E).
Proof. intros i. unfold m_unstructured, mime_unstructured. apply same_bind; [apply o_unstructured_loop|]. intros [j o]. go. Qed.
Hint Resolve o_unstructured : erase.
Lemma o_name_addr : erases (m_name_addr E) (name_addr E).
Proof. intros i. unfold m_name_addr, name_addr. go. Qed.
Hint Resolve o_name_addr : erase.
Lemma o_mailbox : erases (m_mailbox E) (mailbox E).
Proof. unfold m_mailbox, mailbox. comb. Qed.
Hint Resolve o_mailbox : erase.
Lemma o_mailbox_list : erases (m_mailbox_list E) (mailbox_list E).
Proof. intros i. unfold m_mailbox_list, mailbox_list. go. Qed.
Hint Resolve o_mailbox_list : erase.
Lemma o_group : erases (m_group E) (group E).
Proof. intros i. unfold m_group, group. go. Qed.
Hint Resolve o_group : erase.
Lemma o_address : erases (m_address_p E) (address E).
Proof. intros i. unfold m_address_p, address. go. Qed.
Hint Resolve o_address : erase.
Lemma o_address_list : erases (m_address_list E) (address_list E).
Proof. intros i. unfold m_address_list, address_list. go. Qed.
Hint Resolve o_address_list : erase.
(* ---- the parameters ---- *)
Lemma o_split : forall l plain complex, fst (m_split_parameters l plain complex) = Ok (split_parameters l plain complex).
Proof.
  induction l as [|[[[name index] encoded] value] l IH]; intros plain complex; [reflexivity|]. cbn [m_split_parameters split_parameters].
  destruct index as [index|]; cbn; apply IH.
Qed.
Lemma o_decode_parameter : forall v c, same (m_decode_parameter E v c) (decode_parameter E v c).
Proof.
  intros v c. unfold m_decode_parameter. pose proof (same_parameter E v c) as H. unfold same in *. destruct (t_decode_parameter E v c) as [[x|e|k] n]; exact H.
Qed.
Lemma o_first : forall b v, same (m_first_segment E b v) (first_segment E b v).
Proof.
  intros [|] v; [|reflexivity]. unfold m_first_segment, first_segment. apply same_bind; [apply e_take_while|]. intros [v1 c]. apply same_step_bind.
  apply same_bind; [apply e_tag|]. intros [v2 u2]. apply same_bind; [apply e_take_while|]. intros [v3 u3]. apply same_bind; [apply e_tag|]. intros [v4 u4].
  apply same_step_bind. apply same_bind; [apply o_decode_parameter|]. intros x. apply same_ok.
Qed.
Lemma o_next : forall n values charset idx value, same (m_next_segments E n values charset idx value) (next_segments E n values charset idx value).
Proof.
  induction n as [|n IH]; intros values charset idx value; [reflexivity|]. cbn [m_next_segments next_segments]. apply same_step_bind.
  destruct (imap_remove values idx) as [[[encoded nv] vs]|]; [|apply same_ok]. apply same_bind.
  - destruct encoded; [|apply same_step]. destruct charset as [c|]; [|apply same_step]. apply same_step_bind. apply same_bind; [apply o_decode_parameter|]. intros d. apply same_step.
  - intros v. apply same_bind; [apply same_step|]. intros i. apply IH.
Qed.
Lemma o_join : forall values, same (m_join_segments E values) (join_segments E values).
Proof.
  intros values. unfold m_join_segments, join_segments. apply same_step_bind. destruct (imap_remove values 0) as [[[encoded v] vs]|]; [|apply same_ok].
  apply same_bind; [apply o_first|]. intros [v1 c]. apply same_step_bind. apply same_bind; [apply o_next|]. intros x. apply same_ok.
Qed.
Lemma o_join_all : forall names complex ps, same (m_join_all E names complex ps) (join_all E names complex ps).
Proof.
  induction names as [|n names IH]; intros complex ps; [reflexivity|]. cbn [m_join_all join_all]. apply same_step_bind.
  destruct (map_get complex n); [|apply IH]. apply same_bind; [apply o_join|]. intros v. apply IH.
Qed.
Lemma o_collect : forall l, same (m_collect_parameters E l) (collect_parameters E l).
Proof.
  intros l. unfold m_collect_parameters, collect_parameters. pose proof (o_split l [] []) as H.
  destruct (m_split_parameters l [] []) as [[[p c]|e|k] n]; cbn [fst] in H; try discriminate. injection H as <-. cbn [t_bind]. unfold same. cbn [fst]. apply o_join_all.
Qed.
(* ---- the headers of MIME ---- *)
Lemma same_unassoc : forall A B C (x : res A) (f : A -> res B) (g : B -> res C) (y : timed C), same y (bind x (fun a => bind (f a) g)) -> same y (bind (bind x f) g).
Proof. intros A B C [a|e|c] f g y H; exact H. Qed.
Lemma o_inline : erases m_ignore_inline_cfws ignore_inline_cfws.
Proof.
  intros i. unfold m_ignore_inline_cfws, ignore_inline_cfws, triplet. apply same_unassoc. apply same_bind; [apply e_take_while|]. intros [i1 a]. apply same_unassoc.
  apply same_bind; [go|]. intros [i2 b]. apply same_unassoc. apply same_bind; [apply e_take_while|]. intros [i3 c]. apply same_ok.
Qed.
Hint Resolve o_inline : erase.
Lemma o_token : erases m_token token.
Proof. apply e_take_while1. Qed.
Hint Resolve o_token : erase.
Lemma o_lower : forall A (f : bytes -> A), erases (t_pmap f m_lower_token) (pmap (fun name => f (lowercase name)) token).
Proof. intros A f i. unfold t_pmap, pmap, m_lower_token. unfold m_token, token, t_take_while1, t_step, same. destruct (take_while1 is_token_char i) as [[j t]|e|c]; reflexivity. Qed.
Lemma o_number_loop : forall n k i, same (m_u8_number_loop n k i) (u8_number_loop n k i).
Proof.
  induction n as [|n IH]; intros k i; [reflexivity|]. cbn [m_u8_number_loop u8_number_loop]. apply same_attempt; [apply e_digit| |apply same_ok].
  intros [j d]. apply same_bind; [apply same_step|]. intros x. apply same_bind; [apply same_step|]. intros y. apply IH.
Qed.
Lemma o_number : erases m_u8_number u8_number.
Proof. intros i. unfold m_u8_number, u8_number. apply same_bind; [apply e_digit|]. intros [j d]. apply o_number_loop. Qed.
Hint Resolve o_number : erase.
(* a header of mime_fields.rs is written out there, not by the macro *)
Ltac headed := intros i; unfold t_header; apply same_bind; [go|intros [? ?]].
Lemma same_assoc : forall A B C (x : timed A) (f : A -> timed B) (g : B -> timed C) y, same (t_bind x (fun a => t_bind (f a) g)) y -> same (t_bind (t_bind x f) g) y.
Proof. intros A B C [[a|e|c] n] f g y H; unfold same in *; cbn in *; [|exact H..]. destruct (f a) as [[b|e|c] m]; cbn in *; [|exact H..]. destruct (g b); exact H. Qed.
Ltac assoc := repeat apply same_assoc.
Lemma o_mime_version : erases (m_mime_version E) (mime_version E).
Proof.
  unfold m_mime_version, mime_version, m_version_value. headed. apply same_assoc. apply same_bind; [go|]. intros [j1 u1]. apply same_assoc. apply same_bind; [go|]. intros [j2 d1].
  apply same_assoc. apply same_bind; [go|]. intros [j3 u3]. apply same_assoc. apply same_bind; [go|]. intros [j4 d2]. apply same_assoc. apply same_bind; [go|]. intros [j5 u5]. apply (same_step_bind _ _ 0). apply same_bind; [apply e_tag|].
  intros [j6 u6]. apply same_ok.
Qed.
Hint Resolve o_mime_version : erase.
Lemma o_indexed : erases m_indexed_name indexed_name.
Proof.
  intros i. unfold m_indexed_name, indexed_name. apply same_bind; [go|]. intros [j1 n]. apply same_bind; [go|]. intros [j2 index]. apply same_bind.
  - destruct index as [[u x]|]; [|apply same_ok]. go.
  - intros ix. apply same_bind; [apply same_step|]. intros [j3 e]. apply same_step.
Qed.
Hint Resolve o_indexed : erase.
Lemma o_parameter : erases m_parameter parameter.
Proof.
  intros i. unfold m_parameter, parameter. apply same_bind; [go|]. intros [j1 u1]. apply same_bind; [go|]. intros [j2 u2]. apply same_bind; [go|]. intros [j3 u3].
  apply same_bind; [go|]. intros [j4 [[name index] encoded]]. apply same_step_bind. apply same_bind; [go|]. intros [j5 u5]. apply same_bind; [go|]. intros [j6 v]. apply same_ok.
Qed.
Hint Resolve o_parameter : erase.
Lemma o_mime_type : erases (m_mime_type E) (mime_type E).
Proof. unfold m_mime_type, mime_type. repeat first [apply o_lower|apply e_match_nil|apply e_match_cons; [|]|apply e_pmap; apply e_tag_no_case]. Qed.
Hint Resolve o_mime_type : erase.
Lemma o_content_type : erases (m_content_type E) (content_type E).
Proof.
  unfold m_content_type, content_type, m_content_type_value. headed. apply same_assoc. apply same_bind; [go|]. intros [j1 u1]. apply same_assoc. apply same_bind; [go|]. intros [j2 t].
  apply same_assoc. apply same_bind; [go|]. intros [j3 u3]. apply same_assoc. unfold m_lower_token. apply same_assoc. apply same_bind; [go|]. intros [j4 s]. apply same_step_bind.
  apply same_assoc. apply same_bind; [go|]. intros [j5 l]. apply same_assoc. apply same_bind; [apply o_collect|]. intros ps. apply same_assoc. apply same_bind; [go|]. intros [j6 u6].
  apply (same_step_bind _ _ 0). apply same_bind; [apply e_tag|]. intros [j7 u7]. apply same_ok.
Qed.
Hint Resolve o_content_type : erase.
Lemma o_filename : erases (m_filename_parameter E) (filename_parameter E).
Proof. intros i. unfold m_filename_parameter, filename_parameter. go. Qed.
Lemma o_date_parameter : forall n u, erases (m_date_parameter E n u) (date_parameter E n u).
Proof. intros n u i. unfold m_date_parameter, date_parameter. go. Qed.
Hint Resolve o_filename o_date_parameter : erase.
Lemma o_item : erases (m_disposition_item E) (disposition_item_parser E).
Proof. unfold m_disposition_item, disposition_item_parser. comb. Qed.
Hint Resolve o_item : erase.
Lemma o_kind : erases (m_disposition_kind E) (disposition_kind E).
Proof. unfold m_disposition_kind, disposition_kind. repeat first [apply o_lower|apply e_match_nil|apply e_match_cons; [|]|apply e_pmap; apply e_tag_no_case]. Qed.
Hint Resolve o_kind : erase.
Lemma o_disposition : erases (m_content_disposition E) (content_disposition E).
Proof.
  unfold m_content_disposition, content_disposition, m_disposition_value. headed. apply same_assoc. apply same_bind; [go|]. intros [j1 u1]. apply same_assoc. apply same_bind; [go|]. intros [j2 t].
  apply same_assoc. apply same_bind; [go|]. intros [j5 l]. apply same_assoc. apply same_bind; [apply o_collect|]. intros ps. apply same_assoc. apply same_bind; [go|]. intros [j6 u6].
  apply same_step_bind. apply same_bind; [apply e_tag|]. intros [j7 u7]. apply same_ok.
Qed.
Hint Resolve o_disposition : erase.
Lemma o_encoding_name : erases (m_encoding_name E) (encoding_name E).
Proof. unfold m_encoding_name, encoding_name. repeat first [apply o_lower|apply e_match_nil|apply e_match_cons; [|]|apply e_pmap; apply e_tag_no_case]. Qed.
Hint Resolve o_encoding_name : erase.
Lemma o_cte : erases (m_content_transfer_encoding E) (content_transfer_encoding E).
Proof.
  unfold m_content_transfer_encoding, content_transfer_encoding, m_encoding_value. headed. apply same_assoc. apply same_bind; [go|]. intros [j1 u1]. apply same_assoc. apply same_bind; [go|]. intros [j2 t].
  apply same_assoc. apply same_bind; [go|]. intros [j6 u6]. apply (same_step_bind _ _ 0). apply same_bind; [apply e_tag|]. intros [j7 u7]. apply same_ok.
Qed.
Lemma o_id : erases (m_content_id E) (content_id E).
Proof. intros i. unfold m_content_id, content_id, t_header. go. Qed.
Lemma o_description : erases (m_content_description E) (content_description E).
Proof. intros i. unfold m_content_description, content_description, t_header. go. Qed.
Hint Resolve o_cte o_id o_description : erase.
(* ---- the headers ---- *)
Lemma o_field_from : erases (m_field_from E) (field_from E).
Proof. unfold m_field_from, field_from. comb. Qed.
Lemma o_field_sender : erases (m_field_sender E) (field_sender E).
Proof. unfold m_field_sender, field_sender. comb. Qed.
Lemma o_field_reply_to : erases (m_field_reply_to E) (field_reply_to E).
Proof. unfold m_field_reply_to, field_reply_to. comb. Qed.
Lemma o_field_to : erases (m_field_to E) (field_to E).
Proof. unfold m_field_to, field_to. comb. Qed.
Lemma o_field_cc : erases (m_field_cc E) (field_cc E).
Proof. unfold m_field_cc, field_cc. comb. Qed.
Lemma o_bcc_value : erases (m_bcc_value E) (bcc_value E).
Proof. intros i. unfold m_bcc_value, bcc_value. go. Qed.
Hint Resolve o_field_from o_field_sender o_field_reply_to o_field_to o_field_cc o_bcc_value : erase.
Lemma o_field_bcc : erases (m_field_bcc E) (field_bcc E).
Proof. unfold m_field_bcc, field_bcc. comb. Qed.
Lemma o_text : erases (m_unstructured E) (text_value E).
Proof. unfold text_value. rewrite HM. apply o_unstructured. Qed.
Hint Resolve o_field_bcc o_text : erase.
Lemma o_field_subject : erases (m_field_subject E) (field_subject E).
Proof. unfold m_field_subject, field_subject. apply e_header, o_text. Qed.
Lemma o_field_comments : erases (m_field_comments E) (field_comments E).
Proof. unfold m_field_comments, field_comments. apply e_header, o_text. Qed.
Lemma o_keywords_value : erases (m_keywords_value E) (keywords_value E).
Proof. intros i. unfold m_keywords_value, keywords_value. go. Qed.
Hint Resolve o_field_subject o_field_comments o_keywords_value : erase.
Lemma o_field_keywords : erases (m_field_keywords E) (field_keywords E).
Proof. unfold m_field_keywords, field_keywords. comb. Qed.
Hint Resolve o_field_keywords : erase.
Lemma o_resent_field : erases (m_resent_field E) (resent_field E).
Proof. unfold m_resent_field, resent_field. comb. Qed.
Hint Resolve o_resent_field : erase.
Lemma o_unknown : erases (m_unknown E) (unknown E).
Proof. intros i. unfold m_unknown, unknown. destruct (f_unrecognized_headers E); go. Qed.
Hint Resolve o_unknown : erase.
Lemma o_trace_block : erases (m_trace_block E) (trace_block E).
Proof. intros i. unfold m_trace_block, trace_block. go. Qed.
Hint Resolve o_trace_block : erase.
Lemma o_any_field : erases (m_any_field E) (any_field E).
Proof. unfold m_any_field, any_field, m_field_parsers, field_parsers. repeat (apply e_cfg; [comb|]). comb. Qed.
Hint Resolve o_any_field : erase.
Lemma o_fields : erases (m_fields E) (fields E).
Proof. intros i. unfold m_fields, fields. go. Qed.
Lemma o_parse_message : forall i, same (m_parse_message E i) (parse_message E i).
Proof. intros i. unfold m_parse_message, parse_message. rewrite HM. apply same_bind; [apply o_fields|]. intros [j fs]. apply same_bind; [reflexivity|]. intros b. apply same_ok. Qed.
Lemma o_finish : forall a b, same (m_finish E a b) (finish E a b).
Proof.
  intros a b. unfold m_finish.
  assert (forall e, finish_others E a = Err e -> finish E a b = Err e) as HE.
  { intros e. unfold finish_others, finish. destruct (f_from E), (v_from a) as [[|m0 [|m1 l0]]|], (f_date E), (v_date a), (f_sender E), (v_sender a); cbn [ok_or bind]; intros H; first [discriminate H|injection H as <-; reflexivity]. }
  assert (forall c, finish_others E a <> Crash c) as HC.
  { intros c. unfold finish_others. destruct (f_from E), (v_from a) as [[|m0 [|m1 l0]]|], (f_date E), (v_date a), (f_sender E), (v_sender a); cbn [ok_or bind]; intros H; discriminate H. }
  assert (forall d, finish_others E a = Ok d -> match b with Some b => match decode_value E b (match v_cte a with Some e => e | None => SevenBit end) with Ok _ => True | Err e => finish E a (Some b) = Err e | Crash c => finish E a (Some b) = Crash c end | None => True end) as HD.
  { destruct b as [b|]; [|auto]. intros d. unfold finish_others, finish. rewrite HM. set (x := decode_value E b _). destruct x as [v|e|c] eqn:D; [auto| |];
    destruct (f_from E), (v_from a) as [[|m0 [|m1 l0]]|], (f_date E), (v_date a), (f_sender E), (v_sender a); cbn [ok_or bind]; intros H; try discriminate H;
    destruct (v_content_type a) as [[[t s] p]|]; reflexivity. }
  unfold t_step at 1. destruct (finish_others E a) as [u|e|c] eqn:F.
  - unfold t_bind at 1. unfold same. cbn [fst]. destruct b as [b|]; [|reflexivity]. specialize (HD u eq_refl). cbn iota in HD.
    pose proof (same_value E b (match v_cte a with Some e => e | None => SevenBit end)) as HV. unfold same in HV. rewrite <- HV in HD.
    destruct (t_decode_value E b _) as [[v|e|c] n]; cbn in HD |- *; [reflexivity|now rewrite HD..].
  - unfold same. cbn. symmetry. now apply HE.
  - destruct (HC c eq_refl).
Qed.
Theorem m_parse_erases : forall d, fst (m_parse E d) = parse E d.
Proof. intros d. change (same (m_parse E d) (parse E d)). unfold m_parse, parse. apply same_bind; [apply o_parse_message|]. intros [fs b]. apply same_bind; [reflexivity|]. intros a. apply o_finish. Qed.
(* ---- the entities ---- *)
Lemma o_entity_header : erases (m_entity_header E) (entity_header_parser E).
Proof. unfold m_entity_header, entity_header_parser. comb. Qed.
Hint Resolve o_entity_header : erase.
Lemma o_header_part : forall i, same (m_header_part E i) (header_part E i).
Proof. intros i. unfold m_header_part, header_part. apply same_bind; [go|]. intros [j hs]. apply same_step_bind. destruct j; [apply same_ok|]. go. Qed.
Theorem m_raw_entity_erases : forall i, fst (m_raw_entity E i) = raw_entity E i.
Proof.
  intros i. change (same (m_raw_entity E i) (raw_entity E i)). unfold m_raw_entity, raw_entity. apply same_bind; [apply o_header_part|]. intros [len a]. apply same_bind; [apply same_step|]. intros n.
  apply same_bind; [apply same_step|]. intros v. destruct (h_type a) as [[[t s] p]|]; cbv beta iota zeta; (apply same_bind; [apply same_value|]; intros; apply same_ok).
Qed.
Lemma o_raw_entities : forall ps, same (m_raw_entities E ps) (raw_entities E ps).
Proof. induction ps as [|p ps IH]; [reflexivity|]. cbn [m_raw_entities raw_entities]. apply same_bind; [apply m_raw_entity_erases|]. intros e. apply same_bind; [exact IH|]. intros es. apply same_step. Qed.
Lemma o_parse_multipart : forall i ps, same (m_parse_multipart E i ps) (parse_multipart E i ps).
Proof. intros i ps. unfold m_parse_multipart. rewrite split_parts_same. apply same_bind; [apply same_step|]. intros b. apply same_bind; [reflexivity|]. intros l. apply o_raw_entities. Qed.
Theorem m_entity_erases : forall r, fst (m_entity E r) = entity E r.
Proof.
  intros r. change (same (m_entity E r) (entity E r)). unfold m_entity, entity. destruct (e_mime_type r); try apply same_ok; try reflexivity.
  - destruct (map_get (e_parameters r) _) as [c|]; [|apply same_ok]. apply same_step_bind. destruct (find_charset (lowercase c)); [|apply same_ok]. apply same_bind; [reflexivity|]. intros; apply same_ok.
  - apply same_bind; [apply o_parse_multipart|]. intros; apply same_ok.
Qed.
End Mime.

(* Proof of C55: a debug build and the release build of the same features agree unless
   the debug build panics. *)
From Coq Require Import Permutation Lia.
From Verif Require Import Base Base64 QuotedPrintable EncodedWord Whitespace QuotedString Common Time Address Utf8 CharSets Combinators Charset Percent MimeFields Fields Message Entity Email Envs DebugSpec.

Lemma un_refl : forall T (x : res T), unless_crash x x.
Proof. intros. now left. Qed.
Lemma un_crash : forall T k (y : res T), unless_crash (Crash k) y.
Proof. intros. right. eauto. Qed.
Lemma un_bind : forall T U (x y : res T) (f g : T -> res U), unless_crash x y -> (forall a, unless_crash (f a) (g a)) -> unless_crash (bind x f) (bind y g).
Proof. intros T U x y f g [->|[k ->]] H; [|apply un_crash]. destruct y; cbn; auto using un_refl. Qed.
Lemma un_attempt : forall T U (x y : res T) (f g : T -> res U) a b, unless_crash x y -> (forall a, unless_crash (f a) (g a)) -> unless_crash a b -> unless_crash (attempt x f a) (attempt y g b).
Proof. intros T U x y f g a b [->|[k ->]] H K; [|apply un_crash]. destruct y; cbn; auto using un_refl. Qed.
Definition un_parser {T} (p q : parser T) : Prop := forall i, unless_crash (p i) (q i).
Lemma unp_refl : forall T (p : parser T), un_parser p p.
Proof. intros T p i. apply un_refl. Qed.
Lemma un_optional : forall T (p q : parser T), un_parser p q -> un_parser (optional p) (optional q).
Proof. intros T p q H i. unfold optional. apply un_attempt; auto using un_refl. Qed.
Lemma un_match : forall T (l l' : list (parser T)), Forall2 un_parser l l' -> un_parser (match_parsers l) (match_parsers l').
Proof. intros T l l' H. induction H as [|p q l l' H Hl IH]; intros i; [apply un_refl|]. cbn [match_parsers]. apply un_attempt; auto using un_refl. Qed.
Lemma un_pmap : forall T U (f : T -> U) (p q : parser T), un_parser p q -> un_parser (pmap f p) (pmap f q).
Proof. intros T U f p q H i. unfold pmap. apply un_bind; auto. intros [? ?]. apply un_refl. Qed.
Lemma un_many : forall T (p q : parser T), un_parser p q -> un_parser (many p) (many q).
Proof.
  intros T p q H i. unfold many. generalize (S (length i)). intros n. revert i. induction n as [|n IH]; intros i; [apply un_refl|]. cbn [many_fuel].
  apply un_attempt; auto using un_refl. intros [i' a]. apply un_bind; auto. intros [? ?]. apply un_refl.
Qed.
Lemma un_many1 : forall T (p q : parser T), un_parser p q -> un_parser (many1 p) (many1 q).
Proof. intros T p q H i. unfold many1. apply un_bind; auto. intros [i' a]. apply un_bind; [now apply un_many|]. intros [? ?]. apply un_refl. Qed.
Lemma un_prefixed : forall T (p q : parser T) e, un_parser p q -> un_parser (prefixed p e) (prefixed q e).
Proof. intros T p q e H i. unfold prefixed. destruct (starts_with i e); auto using un_refl. apply un_bind; [apply un_refl|]. intros a. apply H. Qed.
Lemma un_collect : forall (p q : parser bytes), un_parser p q -> un_parser (collect_many p) (collect_many q).
Proof.
  intros p q H i. unfold collect_many. apply un_bind; [now apply un_many|]. intros [? ?]. apply un_refl.
Qed.

Lemma un_at : forall T (p q : parser T) i, un_parser p q -> unless_crash (p i) (q i).
Proof. intros T p q i H. apply H. Qed.
Create HintDb un discriminated.
#[local] Hint Constants Opaque : un.

Section Debug.
Variable E : env.
Let R := release E.

Lemma un_add : forall a b, unless_crash (u8_add E a b) (u8_add R a b).
Proof. intros. unfold u8_add. destruct (_ <? _)%N; [apply un_refl|]. cbn. destruct (debug E); [apply un_crash|apply un_refl]. Qed.
Lemma un_mul : forall a b, unless_crash (u8_mul E a b) (u8_mul R a b).
Proof. intros. unfold u8_mul. destruct (_ <? _)%N; [apply un_refl|]. cbn. destruct (debug E); [apply un_crash|apply un_refl]. Qed.
Lemma un_sub : forall a b, unless_crash (u8_sub E a b) (u8_sub R a b).
Proof. intros. unfold u8_sub. destruct (_ <=? _)%N; [apply un_refl|]. cbn. destruct (debug E); [apply un_crash|apply un_refl]. Qed.
Lemma un_tnc : forall a b m, un_parser (tag_no_case E a b m) (tag_no_case R a b m).
Proof.
  intros a b m i. unfold tag_no_case. cbn [debug R release andb]. destruct (debug E); cbn [andb]; [|apply un_refl].
  destruct (negb _); [apply un_crash|]. destruct (negb _); [apply un_crash|apply un_refl].
Qed.
Hint Resolve un_add un_mul un_sub un_tnc : un.
Ltac st := repeat (cbv zeta; first
  [ match goal with
    | |- unless_crash ?x ?y => constr_eq x y; apply un_refl
    | |- un_parser ?x ?y => constr_eq x y; apply unp_refl
    | |- unless_crash (?p ?i) (?q ?i) => simple apply (un_at _ p q i); solve [auto with un nocore]
    end
  | solve [auto with un nocore]
  | match goal with
    | |- unless_crash (bind _ _) (bind _ _) => apply un_bind
    | |- unless_crash (attempt _ _ _) (attempt _ _ _) => apply un_attempt
    | |- forall _, _ => intros ?
    | |- unless_crash (match ?x with _ => _ end) _ => destruct x
    | |- unless_crash _ (match ?x with _ => _ end) => destruct x
    | |- unless_crash ((if ?x then _ else _) _) _ => destruct x
    | |- un_parser (match ?x with _ => _ end) _ => destruct x
    | |- un_parser (match_parsers _) (match_parsers _) => apply un_match
    | |- un_parser (fun _ => _) (fun _ => _) => unfold un_parser; intros ?
    | |- Forall2 _ [] [] => constructor
    | |- Forall2 _ (_ :: _) (_ :: _) => constructor
    | |- un_parser (pmap _ _) (pmap _ _) => apply un_pmap
    | |- un_parser (many _) (many _) => apply un_many
    | |- un_parser (many1 _) (many1 _) => apply un_many1
    | |- un_parser (optional _) (optional _) => apply un_optional
    | |- un_parser (prefixed _ _) (prefixed _ _) => apply un_prefixed
    | |- un_parser (collect_many _) (collect_many _) => apply un_collect
    | |- unless_crash (optional _ ?i) _ => revert i; apply un_optional
    | |- unless_crash (many _ ?i) _ => revert i; apply un_many
    | |- unless_crash (many1 _ ?i) _ => revert i; apply un_many1
    | |- unless_crash (match_parsers _ ?i) _ => revert i; apply un_match
    | |- unless_crash (pmap _ _ ?i) _ => revert i; apply un_pmap
    | |- unless_crash (prefixed _ _ ?i) _ => revert i; apply un_prefixed
    | |- unless_crash (collect_many _ ?i) _ => revert i; apply un_collect
    | |- unless_crash (tag_no_case E _ _ _ ?i) _ => apply un_tnc
    end ]).

Lemma decode_base64_un : forall d, unless_crash (decode_base64 E d) (decode_base64 R d).
Proof.
  intros d. unfold decode_base64. generalize (S (length d)) as n. generalize 0 at 1 3 as i. generalize 0 as o. intros o i n. revert d i o. induction n as [|n IH]; intros d i o; [apply un_refl|]. cbn [decode_base64_loop]. st.
Qed.
Lemma encode_base64_un : forall d, unless_crash (encode_base64 E d) (encode_base64 R d).
Proof.
  intros d. unfold encode_base64. generalize 0 as l. remember (length d) as n. assert (H : length d <= n) by lia. clear Heqn. revert d H.
  induction n as [|n IH]; intros [|a [|b [|c d]]] H l; cbn [encode_base64_loop length] in *; try lia; st; apply IH; lia.
Qed.
Lemma to_hex_un : forall n, unless_crash (to_hex E n) (to_hex R n).
Proof. intros n. unfold to_hex. st. Qed.
Hint Resolve to_hex_un : un.
Lemma encode_qp_un : forall d, unless_crash (encode_qp E d) (encode_qp R d).
Proof.
  intros d. unfold encode_qp. generalize (S (length d)) as n. generalize 0 at 1 3 as i. generalize 0 as o. intros o i n. revert d i o. induction n as [|n IH]; intros d i o; [apply un_refl|]. cbn [encode_qp_loop]. st.
Qed.
Lemma decode_escape_un : forall d i, unless_crash (decode_escape E d i) (decode_escape R d i).
Proof. intros d i. unfold decode_escape. st. Qed.
Hint Resolve decode_escape_un decode_base64_un : un.
Lemma decode_qp_un : forall d, unless_crash (decode_qp E d) (decode_qp R d).
Proof.
  intros d. unfold decode_qp. generalize (S (length d)) as n. generalize 0. intros i n. revert d i. induction n as [|n IH]; intros d i; [apply un_refl|]. cbn [decode_qp_loop]. st.
Qed.
Lemma decode_header_qp_un : forall d, unless_crash (decode_header_qp E d) (decode_header_qp R d).
Proof.
  intros d. unfold decode_header_qp. generalize (S (length d)) as n. generalize 0. intros i n. revert d i. induction n as [|n IH]; intros d i; [apply un_refl|]. cbn [decode_header_qp_loop]. st.
Qed.
Hint Resolve decode_qp_un decode_header_qp_un : un.
Lemma decode_charset_un : forall k v, unless_crash (decode_charset E k v) (decode_charset R k v).
Proof. intros. apply un_refl. Qed.
Hint Resolve decode_charset_un : un.
Lemma encoded_word_un : un_parser (encoded_word E) (encoded_word R).
Proof. intros i. unfold encoded_word. st. Qed.
Lemma decode_percents_un : forall ps i, unless_crash (decode_percents E i ps) (decode_percents R i ps).
Proof. induction ps as [|p ps IH]; intros i; [apply un_refl|]. cbn [decode_percents]. unfold decode_percent. st. Qed.
Hint Resolve encoded_word_un decode_percents_un : un.
Lemma decode_parameter_un : forall i c, unless_crash (decode_parameter E i c) (decode_parameter R i c).
Proof. intros i c. unfold decode_parameter. st. Qed.
Hint Resolve decode_parameter_un : un.
Lemma next_segments_un : forall n values cs idx v, unless_crash (next_segments E n values cs idx v) (next_segments R n values cs idx v).
Proof. induction n as [|n IH]; intros values cs idx v; [apply un_refl|]. cbn [next_segments]. st. Qed.
Hint Resolve next_segments_un : un.
Lemma join_segments_un : forall values, unless_crash (join_segments E values) (join_segments R values).
Proof. intros values. unfold join_segments, first_segment. st. Qed.
Hint Resolve join_segments_un : un.
Lemma join_all_un : forall names complex ps, unless_crash (join_all E names complex ps) (join_all R names complex ps).
Proof. induction names as [|n names IH]; intros complex ps; [apply un_refl|]. cbn [join_all]. st. Qed.
Hint Resolve join_all_un : un.
Lemma collect_parameters_un : forall l, unless_crash (collect_parameters E l) (collect_parameters R l).
Proof. intros l. unfold collect_parameters. destruct (split_parameters l [] []). apply join_all_un. Qed.
Hint Resolve collect_parameters_un : un.

Lemma dot_atom_text_un : un_parser (dot_atom_text E) (dot_atom_text R).
Proof. apply unp_refl. Qed.
Lemma phrase_word_un : un_parser (phrase_word E) (phrase_word R).
Proof. unfold phrase_word. change (f_mime R) with (f_mime E). st. Qed.
Hint Resolve phrase_word_un : un.
Lemma phrase_un : un_parser (phrase E) (phrase R).
Proof. apply un_many1, phrase_word_un. Qed.
Hint Resolve phrase_un : un.
Lemma mime_unstructured_un : un_parser (mime_unstructured E) (mime_unstructured R).
Proof.
  assert (L : forall n f i, unless_crash (mime_unstructured_loop E n f i) (mime_unstructured_loop R n f i)).
  { induction n as [|n IH]; intros f i; [apply un_refl|]. cbn [mime_unstructured_loop]. unfold mime_unstructured_step. st. }
  intros i. unfold mime_unstructured. st.
Qed.
Hint Resolve mime_unstructured_un : un.
Lemma message_id_un : un_parser (message_id E) (message_id R).
Proof. apply unp_refl. Qed.
Lemma angle_addr_un : un_parser (angle_addr E) (angle_addr R).
Proof. apply unp_refl. Qed.
Lemma addr_spec_un : un_parser (addr_spec E) (addr_spec R).
Proof. apply unp_refl. Qed.
Lemma domain_un : un_parser (domain E) (domain R).
Proof. apply unp_refl. Qed.
Hint Resolve message_id_un angle_addr_un addr_spec_un domain_un : un.
Lemma name_addr_un : un_parser (name_addr E) (name_addr R).
Proof. intros i. unfold name_addr. st. Qed.
Hint Resolve name_addr_un : un.
Lemma mailbox_un : un_parser (mailbox E) (mailbox R).
Proof. unfold mailbox. st. Qed.
Hint Resolve mailbox_un : un.
Lemma mailbox_list_un : un_parser (mailbox_list E) (mailbox_list R).
Proof. intros i. unfold mailbox_list. st. Qed.
Hint Resolve mailbox_list_un : un.
Lemma group_un : un_parser (group E) (group R).
Proof. intros i. unfold group. st. Qed.
Hint Resolve group_un : un.
Lemma address_un : un_parser (address E) (address R).
Proof. intros i. unfold address. st. Qed.
Hint Resolve address_un : un.
Lemma address_list_un : un_parser (address_list E) (address_list R).
Proof. intros i. unfold address_list. st. Qed.
Hint Resolve address_list_un : un.
Lemma bcc_un : un_parser (bcc_value E) (bcc_value R).
Proof. intros i. unfold bcc_value. st. Qed.
Lemma text_un : un_parser (text_value E) (text_value R).
Proof. unfold text_value. change (f_mime R) with (f_mime E). st. Qed.
Lemma keywords_un : un_parser (keywords_value E) (keywords_value R).
Proof. intros i. unfold keywords_value. st. Qed.
Lemma unknown_un : un_parser (unknown E) (unknown R).
Proof. intros i. unfold unknown. change (f_unrecognized_headers R) with (f_unrecognized_headers E). st. Qed.
Hint Resolve bcc_un text_un keywords_un unknown_un : un.
Lemma two_digits_un : un_parser (two_digits E) (two_digits R).
Proof. intros i. unfold two_digits. st. Qed.
Hint Resolve two_digits_un : un.
Lemma date_time_un : un_parser (date_time E) (date_time R).
Proof. intros i. unfold date_time, date, time, day, zone, time_of_day. st. Qed.
Hint Resolve date_time_un : un.
Lemma header_un : forall T e1 e2 m (p q : parser T) m', un_parser p q -> un_parser (header E e1 e2 m p m') (header R e1 e2 m q m').
Proof. intros T e1 e2 m p q m' H i. unfold header. st. Qed.
Lemma resent_un : forall T m (p q : parser T), un_parser p q -> un_parser (resent E m p) (resent R m q).
Proof. intros T m p q H i. unfold resent. st. Qed.
Ltac sth := st; try (apply un_pmap); try apply resent_un; try (apply header_un); st.
Lemma resent_field_un : un_parser (resent_field E) (resent_field R).
Proof. apply un_match. repeat (apply Forall2_cons || apply Forall2_nil); sth. Qed.
Lemma received_token_un : un_parser (received_token_parser E) (received_token_parser R).
Proof. apply unp_refl. Qed.
Hint Resolve resent_field_un received_token_un : un.
Lemma received_un : un_parser (received E) (received R).
Proof. apply header_un. intros i. unfold received_value. st. Qed.
Lemma return_path_un : un_parser (return_path E) (return_path R).
Proof. apply header_un. apply unp_refl. Qed.
Hint Resolve received_un return_path_un : un.
Lemma block_un : un_parser (trace_block E) (trace_block R).
Proof. intros i. unfold trace_block, trace. st. Qed.
Lemma version_un : un_parser (mime_version E) (mime_version R).
Proof. intros i. unfold mime_version. st. Qed.
Lemma mime_type_un : un_parser (mime_type E) (mime_type R).
Proof. unfold mime_type. st. Qed.
Lemma encoding_name_un : un_parser (encoding_name E) (encoding_name R).
Proof. unfold encoding_name. st. Qed.
Lemma kind_un : un_parser (disposition_kind E) (disposition_kind R).
Proof. unfold disposition_kind. st. Qed.
Lemma item_un : un_parser (disposition_item_parser E) (disposition_item_parser R).
Proof. unfold disposition_item_parser, filename_parameter, date_parameter. st. Qed.
Hint Resolve block_un version_un mime_type_un encoding_name_un kind_un item_un : un.
Lemma content_type_un : un_parser (content_type E) (content_type R).
Proof. intros i. unfold content_type. st. Qed.
Lemma content_disposition_un : un_parser (content_disposition E) (content_disposition R).
Proof. intros i. unfold content_disposition. st. Qed.
Lemma content_transfer_un : un_parser (content_transfer_encoding E) (content_transfer_encoding R).
Proof. intros i. unfold content_transfer_encoding. st. Qed.
Lemma content_id_un : un_parser (content_id E) (content_id R).
Proof. intros i. unfold content_id. st. Qed.
Lemma content_description_un : un_parser (content_description E) (content_description R).
Proof. intros i. unfold content_description. st. Qed.
Hint Resolve content_type_un content_disposition_un content_transfer_un content_id_un content_description_un : un.
Lemma cfg_un : forall T b (p q : parser T) l l', un_parser p q -> Forall2 un_parser l l' -> Forall2 un_parser (cfg b p ++ l) (cfg b q ++ l').
Proof. intros T [|] p q l l' H K; cbn; auto. Qed.
Lemma any_field_un : un_parser (any_field E) (any_field R).
Proof.
  apply un_match. unfold field_parsers. repeat (apply cfg_un; [sth|]). constructor; [|constructor]. sth.
Qed.
Hint Resolve any_field_un : un.
Lemma fields_un : un_parser (fields E) (fields R).
Proof. intros i. unfold fields. change (f_trace R) with (f_trace E). st. Qed.
Hint Resolve fields_un : un.
Lemma parse_message_un : forall i, unless_crash (parse_message E i) (parse_message R i).
Proof. intros i. unfold parse_message. change (f_mime R) with (f_mime E). st. Qed.
Lemma decode_value_un : forall v e, unless_crash (decode_value E v e) (decode_value R v e).
Proof. intros v e. unfold decode_value. st. Qed.
Hint Resolve parse_message_un decode_value_un : un.
Lemma finish_un : forall a b, unless_crash (finish E a b) (finish R a b).
Proof.
  intros a b. unfold finish. change (f_mime R) with (f_mime E). change (f_from R) with (f_from E). change (f_date R) with (f_date E). change (f_sender R) with (f_sender E).
  apply un_bind; [apply un_refl|]. intros fr. apply un_bind; [apply un_refl|]. intros da. apply un_bind; [apply un_refl|]. intros se. apply un_bind; [|intros; apply un_refl]. st.
Qed.
Hint Resolve finish_un : un.
Theorem parse_un : forall d, unless_crash (parse E d) (parse R d).
Proof. intros d. unfold parse. st. Qed.
Lemma entity_header_un : un_parser (entity_header_parser E) (entity_header_parser R).
Proof. unfold entity_header_parser. st. Qed.
Hint Resolve entity_header_un : un.
Theorem raw_entity_un : forall i, unless_crash (raw_entity E i) (raw_entity R i).
Proof. intros i. unfold raw_entity, header_part. st. Qed.
Hint Resolve raw_entity_un : un.
Theorem entity_un : forall r, unless_crash (entity E r) (entity R r).
Proof.
  intros r. assert (L : forall l, unless_crash (raw_entities E l) (raw_entities R l)) by (induction l as [|p l IH]; [apply un_refl|]; cbn [raw_entities]; st).
  unfold entity, parse_multipart. st.
Qed.
End Debug.

(* parsing/mime/entity.rs and multipart.rs: parts and entities are what EntitySpec.v says; nothing
   crashes, except for the counter overflow of a checked build. *)
From Coq Require Import Lia ZifyBool ZifyNat ZifyN Permutation.
From Verif Require Import Base Utf8 CharSets Combinators Time Address Percent Charset MimeFields Fields Entity Rfc5322 Rfc2047
  CodecSpec RfcFields EmailSpec MultipartSpec EntitySpec Post PercentProofs SoundBase SoundTime SoundAddr ParamProofs SoundFields SoundMessage
  MultipartProofs.

(* ---- headers ---- *)
Lemma sound_entity_header : forall E i, (forall x, Permutation (hash_order E x) x) ->
  post (overflow E) (entity_header_parser E i) i (part_header E).
Proof.
  intros E i Hh. unfold entity_header_parser. apply post_Forall_match. repeat (apply Forall_cons || apply Forall_nil); apply post_pmap.
  - eapply post_weaken; [apply sound_encoding|]. intros c e H. now constructor.
  - eapply post_weaken; [now apply sound_content_type|]. intros c [[t s] p] H. now constructor.
  - eapply post_weaken; [apply sound_content_id|]. intros c e H. now constructor.
  - eapply post_weaken; [apply sound_content_description|]. intros c e H. now constructor.
  - eapply post_weaken; [now apply sound_content_disposition|]. intros c e H. now constructor.
  - eapply post_weaken; [apply sound_unknown|]. intros c [n v] H. now constructor.
Qed.
Lemma part_header_nonempty : forall E c h, part_header E c h -> c <> [].
Proof. intros E c h H. destruct H; try (eapply header_nonempty; eassumption). eapply unknown_nonempty; eauto. Qed.

Definition acc_of_headers (hs : list entity_header) : header_acc :=
  {| h_encoding := last_some of_encoding hs; h_type := last_some of_type hs; h_id := last_some of_id hs;
     h_description := last_some of_description hs; h_disposition := last_some of_disposition hs;
     h_additional := concat (map (fun h => opt_list (of_other h)) hs) |}.
Lemma set_header_spec : forall hs h, set_header (acc_of_headers hs) h = acc_of_headers (hs ++ [h]).
Proof.
  intros hs h. unfold acc_of_headers. rewrite !last_some_app, map_app, concat_app.
  destruct h; cbn; now rewrite ?app_nil_r.
Qed.
Lemma set_headers_spec : forall hs pre, fold_left set_header hs (acc_of_headers pre) = acc_of_headers (pre ++ hs).
Proof.
  induction hs as [|h hs IH]; intros pre; cbn [fold_left]; [now rewrite app_nil_r|].
  rewrite set_header_spec, IH, <- app_assoc. reflexivity.
Qed.

Definition part_error : error := Explicit "TAG ERROR: A MIME entity header part must be followed by a CRLF sequence.".
(* why a text is not a part *)
Definition not_part (E : env) (i : bytes) (e : error) : Prop :=
  e = part_error \/ exists hs b w, part_text E i hs b /\ e = Unknown w /\
    forall v, ~ transfer_decoded (encoding_of (last_some of_encoding hs)) b v.
Lemma header_part_spec : forall E i, (forall x, Permutation (hash_order E x) x) ->
  match header_part E i with
  | Ok (n, a) => exists hs c b, part_text E i hs b /\ a = acc_of_headers hs /\ i = c ++ b /\ length b = n
  | Err e => e = part_error
  | Crash k => overflow E k
  end.
Proof.
  intros E i Hh. unfold header_part.
  pose proof (post_many _ (overflow E) (entity_header_parser E) (part_header E) i (part_header_nonempty E) (fun j => sound_entity_header E j Hh)) as H.
  destruct (many (entity_header_parser E) i) as [[r hs]|e|k] eqn:M; cbn [bind]; [|unfold many in M; now apply many_fuel_no_err in M|exact H].
  cbn in H. destruct H as (c & -> & H). change header_acc0 with (acc_of_headers []). rewrite set_headers_spec. cbn [app].
  destruct r as [|x r].
  - exists hs, c, []. repeat split; auto. exists c, []. auto.
  - destruct (tag_inv CRLF "TAG ERROR: A MIME entity header part must be followed by a CRLF sequence." (x :: r)) as [(r' & -> & ->)|(_ & ->)]; cbn [bind]; [|reflexivity].
    exists hs, (c ++ CRLF), r'. repeat split; auto; [|now rewrite <- app_assoc]. exists c, (CRLF ++ r'). auto.
Qed.
Lemma sound_raw_entity : forall E i, (forall x, Permutation (hash_order E x) x) ->
  match raw_entity E i with
  | Ok r => exists hs b, part_text E i hs b /\ part_of hs b r
  | Err e => not_part E i e
  | Crash k => overflow E k
  end.
Proof.
  intros E i Hh. unfold raw_entity. pose proof (header_part_spec E i Hh) as H.
  destruct (header_part E i) as [[n a]|e|k]; cbn [bind]; [|now left|exact H].
  destruct H as (hs & c & b & Hp & -> & -> & <-). unfold usize_sub. rewrite app_length.
  destruct (Nat.ltb_spec (length c + length b) (length b)); [lia|]. cbn [bind].
  replace (length c + length b - length b) with (length c) by lia. rewrite index_from_app. cbn [bind].
  cbn [acc_of_headers h_encoding h_type h_description h_id h_disposition h_additional].
  change (match last_some of_type hs with Some x => x | None => default_content_type end) with (type_of (last_some of_type hs)).
  change (match last_some of_encoding hs with Some e => e | None => SevenBit end) with (encoding_of (last_some of_encoding hs)).
  destruct (type_of (last_some of_type hs)) as [[t s] p] eqn:T.
  pose proof (decode_value_spec E b (encoding_of (last_some of_encoding hs))) as D.
  destruct (decode_value E b (encoding_of (last_some of_encoding hs))) as [v|e|k]; cbn [bind]; [| |contradiction].
  - exists hs, b. split; auto. constructor; cbn; auto.
  - destruct D as [[w ->] D]. right. exists hs, b, w. auto.
Qed.

Lemma sound_raw_entities : forall E ps, (forall x, Permutation (hash_order E x) x) ->
  ppost (overflow E) (raw_entities E ps) (fun es => Forall2 (fun p e => exists hs t, part_text E p hs t /\ part_of hs t e) ps es).
Proof.
  intros E ps Hh. induction ps as [|p ps IH]; cbn [raw_entities]; [constructor|].
  pose proof (sound_raw_entity E p Hh) as H. destruct (raw_entity E p) as [e|e|k]; cbn [bind]; [|exact I|exact H].
  destruct (raw_entities E ps) as [es|e'|k]; cbn in *; auto.
Qed.
Lemma cut_many : forall b c l r ps, many_of (split_text b) c l -> cut_text b r ps -> cut_text b (c ++ r) (l ++ ps).
Proof.
  intros b c l r ps H Hr. induction H as [|c p cs l Hp Hl IH]; [exact Hr|]. rewrite <- app_assoc. destruct Hp as [|p].
  - rewrite <- app_assoc. now apply cut_start.
  - rewrite <- app_assoc. now apply cut_more.
Qed.
Lemma vec_remove_0 : forall A (l : list A) q ps, l = q :: ps -> vec_remove l 0 = Ok (q, ps).
Proof. intros A l q ps ->. reflexivity. Qed.
Lemma sound_parse_multipart : forall E i params, (forall x, Permutation (hash_order E x) x) ->
  ppost (overflow E) (parse_multipart E i params) (fun es => exists b pre parts, map_get params (bs "boundary") = Some b /\
    cut_text b i (pre :: parts) /\ Forall2 (fun p e => exists hs t, part_text E p hs t /\ part_of hs t e) parts es).
Proof.
  intros E i params Hh. unfold parse_multipart. destruct (map_get params (bs "boundary")) as [b|]; cbn [ok_or bind]; [|exact I].
  pose proof (post_many _ (overflow E) (before_boundary b) (split_text b) i (split_nonempty b) (post_before_boundary _ b)) as H.
  destruct (many (before_boundary b) i) as [[r l]|e|k]; cbn [bind]; [|exact I|exact H].
  cbn in H. destruct H as (c & -> & H).
  destruct (before_closing_spec b r) as [(p & epi & -> & _ & ->)|(_ & e & ->)]; cbn [bind]; [|exact I].
  assert (HC : cut_text b (c ++ p ++ closing_delimiter b ++ epi) (l ++ [p])) by (eapply cut_many; eauto; constructor).
  destruct (l ++ [p]) as [|q ps] eqn:L; [destruct l; discriminate|].
  match goal with |- context [vec_remove ?x 0] => change x with (l ++ [p]) end. rewrite (vec_remove_0 _ _ _ _ L). cbn [bind].
  eapply ppost_weaken; [now apply sound_raw_entities|]. intros es Hes. exists b, q, ps. auto.
Qed.
Lemma find_charset_names : forall cs k, find_charset cs = Some k -> In cs charset_names.
Proof.
  intros cs k. unfold find_charset, charset_table. cbn [map_get].
  repeat match goal with |- context [bytes_eqb cs ?x] =>
    let Hn := fresh in destruct (bytes_eqb cs x) eqn:Hn; [apply bytes_eqb_eq in Hn; subst cs; intros _; vm_compute; tauto|clear Hn] end.
  discriminate.
Qed.
Theorem sound_entity : forall E r, (forall x, Permutation (hash_order E x) x) ->
  ppost (overflow E) (entity E r) (entity_meaning E r).
Proof.
  intros E r Hh. unfold entity. destruct (e_mime_type r) eqn:T; try (cbn; apply meaning_other; congruence).
  - destruct (map_get (e_parameters r) (bs "charset")) as [cs|] eqn:C; [|apply meaning_charset; congruence].
    destruct (find_charset (lowercase cs)) as [k|] eqn:F.
    + destruct (decode_charset_no_crash E k (e_value r)) as [[v Hv]|Hv]; rewrite Hv; cbn; auto.
      eapply meaning_text; eauto. apply charset_spec. unfold charset_value. rewrite <- lowercase_fold, F, Hv. reflexivity.
    + cbn. apply meaning_charset; auto. intros cs' H. assert (cs' = cs) by congruence. subst. intros Hin.
      apply charset_names_find in Hin as [k Hk]. rewrite <- lowercase_fold in Hk. congruence.
  - pose proof (sound_parse_multipart E (e_value r) (e_parameters r) Hh) as H.
    destruct (parse_multipart E (e_value r) (e_parameters r)) as [es|e|k]; cbn in *; auto.
    destruct H as (b & pre & parts & H1 & H2 & H3). eapply meaning_multipart; eauto.
Qed.

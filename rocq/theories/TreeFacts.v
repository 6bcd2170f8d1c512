(* MIME trees: what is written as a tree of parts is read as that tree. *)
From Coq Require Import Lia ZifyBool ZifyNat ZifyN Permutation.
From Verif Require Import Base Utf8 CharSets Combinators Whitespace QuotedString Common Time Address Percent Charset MimeFields Fields Message Entity Email Envs
  Rfc5322 Rfc2047 Post CodecSpec RfcFields SoundBase SoundTime TagNoCase PercentProofs ParamProofs SoundFields EmailSpec SoundMessage EmailProofs Steps Complete CompleteFields Forward ForwardText
  ForwardMimeFields ForwardTrace ForwardFields ForwardMessage HeaderFacts MultipartSpec EntitySpec EntityProofs MultipartRound ParamSpec OrderFacts ParamWrite Base64Proofs Utf8Facts Writers MailSpec RangeWrite TreeSpec.
Local Open Scope N_scope.

(* ---- one header of a part ---- *)
Ltac part_skip H := repeat (rewrite parsers_skip by (apply pmap_err; field_none; other H)).
Lemma part_names_no_colon : forall name, In name part_names -> ~ In 58 (bs name).
Proof. intros name H. cbn in H. repeat (destruct H as [<-|H]; [no_colon|]). destruct H. Qed.
Lemma ftext_no_colon : forall n, chars1 rfc_ftext n -> ~ In 58 n.
Proof. intros n [_ H] X. unfold chars in H. rewrite Forall_forall in H. apply H in X. apply ftext_spec in X. discriminate. Qed.
Lemma unnamed_part : forall E i, (forall name, In name part_names -> without name i) ->
  entity_header_parser E i = match_parsers [pmap (fun '(n, v) => HOther n v) (unknown E)] i.
Proof. intros E i H. unfold entity_header_parser. repeat (rewrite parsers_skip by (apply pmap_err; field_none; apply H; in_list)). reflexivity. Qed.
Lemma part_header_forward : forall E c h i, an_order (hash_order E) -> clear_part_header E c h -> ends is_wsp i ->
  exists h', entity_header_parser E (c ++ i) = Ok (i, h') /\ same_header h h'.
Proof.
  intros E c h i HE H Hi. destruct H as [c e H|c t s p H|c v H|c v H|c v H|n c v Hn Hu Hv].
  - exists (HEncoding e). split; [|constructor]. unfold entity_header_parser. apply parsers_hit, pmap_ok. now apply encoding_forward.
  - destruct (content_type_forward E c t s p i HE Hi H) as (l & Hl & Hg). exists (HType t s l). split; [|constructor; exact Hg]. unfold entity_header_parser. part_skip H.
    apply parsers_hit. apply (pmap_ok _ _ (fun '(t, s, p) => HType t s p) (content_type E) _ i (t, s, l)). exact Hl.
  - exists (HId v). split; [|constructor]. unfold entity_header_parser. part_skip H. apply parsers_hit, pmap_ok. now apply content_id_forward.
  - exists (HDescription v). split; [|constructor]. unfold entity_header_parser. part_skip H. apply parsers_hit, pmap_ok. now apply content_description_forward.
  - destruct (content_disposition_forward E c v i HE Hi H) as (d & Hd & Hg). exists (HDisposition d). split.
    + unfold entity_header_parser. part_skip H. apply parsers_hit, pmap_ok. exact Hd.
    + inversion Hg; subst; [apply same_header_refl|]. apply same_header_disposition. now constructor.
  - exists (HOther n v). split; [|constructor]. rewrite <- !app_assoc. rewrite unnamed_part.
    + apply parsers_hit. apply (pmap_ok _ _ (fun '(n, v) => HOther n v) (unknown E) _ i (n, v)). now apply unknown_forward.
    + intros name Hin. apply named_without; [now apply ftext_no_colon|now apply part_names_no_colon|now apply Hu].
Qed.
Lemma part_header_starts : forall E c h i, clear_part_header E c h -> starts_header (c ++ i).
Proof.
  intros E c h i H. destruct H as [c e H|c t s p H|c v H|c v H|c v H|n c v Hn Hu Hv]; [hstarts H|hstarts H|hstarts H|hstarts H|hstarts H|].
  exists n, (c ++ CRLF ++ i). rewrite <- !app_assoc. split; [reflexivity|exact Hn].
Qed.
Lemma part_header_none : forall E i, bare i -> exists e, entity_header_parser E i = Err e.
Proof.
  intros E i H. rewrite unnamed_part.
  - rewrite parsers_skip; [cbn; eauto|]. apply pmap_err, unknown_none. destruct H as [->|[b ->]]; [exact I|reflexivity].
  - intros name Hn. apply bare_without; auto. cbn in Hn. repeat (destruct Hn as [<-|Hn]; [discriminate|]). destruct Hn.
Qed.

(* ---- a part ---- *)
Definition same_type_t (x y : content_type_t * bytes * list (bytes * bytes)) : Prop := fst x = fst y /\ same_map (snd x) (snd y).
Lemma same_last : forall A (sel : entity_header -> option A) (R : A -> A -> Prop) hs hs', (forall h h', same_header h h' -> same_option R (sel h) (sel h')) ->
  Forall2 same_header hs hs' -> same_option R (last_some sel hs) (last_some sel hs').
Proof.
  intros A sel R hs hs' HR F. induction F as [|h h' hs hs' H F IH]; [constructor|]. cbn [last_some]. destruct IH; [now apply HR|now constructor].
Qed.
Lemma same_option_eq : forall A (x y : option A), same_option eq x y -> x = y.
Proof. intros A x y []; congruence. Qed.
Lemma same_option_refl : forall A (R : A -> A -> Prop) x, (forall a, R a a) -> same_option R x x.
Proof. intros A R [a|] H; constructor; auto. Qed.
Ltac same_sel_h := intros ? ? []; cbn; try (apply same_option_refl; reflexivity); constructor.
Lemma part_same : forall hs hs' b v, Forall2 same_header hs hs' -> transfer_decoded (encoding_of (last_some of_encoding hs)) b v ->
  exists r r', part_of hs b r /\ part_of hs' b r' /\ same_entity r r' /\ e_value r' = v /\ encoding_of (last_some of_encoding hs') = encoding_of (last_some of_encoding hs).
Proof.
  intros hs hs' b v F Hv.
  assert (He : last_some of_encoding hs = last_some of_encoding hs') by (apply same_option_eq, same_last; [same_sel_h|exact F]).
  assert (Hi : last_some of_id hs = last_some of_id hs') by (apply same_option_eq, same_last; [same_sel_h|exact F]).
  assert (Hd : last_some of_description hs = last_some of_description hs') by (apply same_option_eq, same_last; [same_sel_h|exact F]).
  assert (Hx : same_option same_disposition_t (last_some of_disposition hs) (last_some of_disposition hs')).
  { apply same_last; [|exact F]. intros ? ? []; cbn; try (apply same_option_refl, same_disposition_refl); now constructor. }
  assert (Ht : same_option same_type_t (last_some of_type hs) (last_some of_type hs')).
  { apply same_last; [|exact F]. intros ? ? []; cbn; try (apply same_option_refl; intros ?; split; [reflexivity|apply same_map_refl]); constructor; now split. }
  assert (Ho : concat (map (fun h => opt_list (of_other h)) hs) = concat (map (fun h => opt_list (of_other h)) hs')).
  { clear - F. induction F as [|h h' hs hs' H F IH]; cbn [map concat]; [reflexivity|]. rewrite IH. f_equal. now destruct H. }
  assert (Hty : same_type_t (type_of (last_some of_type hs)) (type_of (last_some of_type hs'))) by (destruct Ht; [split; [reflexivity|apply same_map_refl]|assumption]).
  destruct (type_of (last_some of_type hs)) as [[t s] p] eqn:T, (type_of (last_some of_type hs')) as [[t' s'] p'] eqn:T'. destruct Hty as [Q Hp]. cbn in Q, Hp. injection Q as <- <-.
  exists {| e_mime_type := t; e_subtype := s; e_description := last_some of_description hs; e_id := last_some of_id hs; e_parameters := p;
            e_disposition := last_some of_disposition hs; e_value := v; e_additional_headers := concat (map (fun h => opt_list (of_other h)) hs) |},
         {| e_mime_type := t; e_subtype := s; e_description := last_some of_description hs; e_id := last_some of_id hs; e_parameters := p';
            e_disposition := last_some of_disposition hs'; e_value := v; e_additional_headers := concat (map (fun h => opt_list (of_other h)) hs) |}.
  split; [constructor; cbn; auto|]. split; [constructor; cbn; auto; now rewrite <- He|]. split; [now constructor|]. split; [reflexivity|now rewrite He].
Qed.
Lemma transfer_functional : forall E enc b v, transfer_decoded enc b v -> decode_value E b enc = Ok v.
Proof.
  intros E enc b v H. pose proof (decode_value_spec E b enc) as D. destruct (decode_value E b enc) as [w|e|k].
  - f_equal. destruct H; inversion D; subst; congruence.
  - destruct D as [_ D]. exfalso. eapply D; eauto.
  - contradiction.
Qed.
Theorem part_forward : forall E c hs c' b v, env_ok E -> many_of (clear_part_header E) c hs -> content_after c' b ->
  transfer_decoded (encoding_of (last_some of_encoding hs)) b v ->
  exists r r', raw_entity E (c ++ c') = Ok r' /\ part_of hs b r /\ same_entity r r' /\ e_value r = v.
Proof.
  intros E c hs c' b v HE Hc Hb Hv. assert (B : bare c') by (destruct Hb as [[-> _]| ->]; [now left|right; eauto]).
  destruct (headers_steps _ _ (clear_part_header E) (entity_header_parser E) same_header c') with (c := c) (l := hs) as (hs' & S & F);
    [intros c0 a j Ha Hj; apply part_header_forward; auto; exact (ok_hash E HE)|intros; eapply part_header_starts; eauto|now apply bare_wsp|now apply part_header_none|exact Hc|].
  destruct (part_same hs hs' b v F Hv) as (r & r' & H1 & H2 & H3 & H4 & H5). exists r, r'. split; [|split; [exact H1|]; split; [exact H3|]; destruct H3; exact H4].
  destruct H2 as [P1 P2 P3 P4 P5 P6].
  assert (HP : exists x, c ++ c' = x ++ b /\ header_part E (c ++ c') = Ok (length b, acc_of_headers hs')).
  { unfold header_part. rewrite (many_steps _ _ _ _ _ S). cbn [bind]. change header_acc0 with (acc_of_headers []). rewrite set_headers_spec. cbn [app].
    destruct Hb as [[-> ->]| ->]; [exists c; split; [now rewrite app_nil_r|reflexivity]|]. exists (c ++ CRLF). split; [now rewrite <- app_assoc|].
    change (CRLF ++ b) with (13 :: 10 :: b). cbn [bind]. change (13 :: 10 :: b) with (CRLF ++ b). rewrite tag_app. reflexivity. }
  destruct HP as (x & Ex & HP). unfold raw_entity. rewrite HP. cbn [bind]. rewrite Ex. unfold usize_sub. rewrite app_length.
  destruct (Nat.ltb_spec (length x + length b) (length b)); [lia|]. cbn [bind]. replace (length x + length b - length b)%nat with (length x) by lia. rewrite index_from_app. cbn [bind].
  cbn [acc_of_headers h_encoding h_type h_description h_id h_disposition h_additional].
  change (match last_some of_type hs' with Some x => x | None => default_content_type end) with (type_of (last_some of_type hs')).
  change (match last_some of_encoding hs' with Some e => e | None => SevenBit end) with (encoding_of (last_some of_encoding hs')). rewrite <- P1.
  rewrite (transfer_functional E _ _ _ P6). cbn [bind]. rewrite <- P2, <- P3, <- P4, <- P5. destruct r'. reflexivity.
Qed.

(* ---- trees ---- *)
Scheme content_ind' := Minimality for content Sort Prop with all_parts_ind' := Minimality for all_parts Sort Prop.
Combined Scheme content_parts_ind from content_ind', all_parts_ind'.
Lemma text_shown : forall E cs raw v, charset_decodes (textcode E) (map fold_case cs) raw v ->
  exists k, find_charset (lowercase cs) = Some k /\ decode_charset E k raw = Ok v.
Proof.
  intros E cs raw v H. apply charset_spec in H. unfold charset_value in H. rewrite <- lowercase_fold in H. destruct (find_charset (lowercase cs)) as [k|]; [|discriminate].
  exists k. split; [reflexivity|]. destruct (decode_charset E k raw); congruence.
Qed.
Theorem trees_read : forall E, env_ok E ->
  (forall ty enc b t, content E ty enc b t -> exists v, transfer_decoded enc b v /\
    forall r, (e_mime_type r, e_subtype r) = fst ty -> same_map (snd ty) (e_parameters r) -> e_value r = v -> shows E r t) /\
  (forall cs ts, all_parts E cs ts -> exists rs, Forall2 (fun c r => raw_entity E c = Ok r) cs rs /\ shows_all E rs ts).
Proof.
  intros E HE. apply content_parts_ind.
  - intros s ps enc b cs raw v Hc Hr Hv. exists raw. split; [exact Hr|]. intros r Hm Hp Hx. cbn in Hm, Hp. injection Hm as Hm Hs. subst s. apply shows_text.
    unfold entity. rewrite Hm. pose proof (Hp (bs "charset")) as Hq. unfold bytes, byte in *. rewrite Hc in Hq. rewrite <- Hq. destruct (text_shown E cs raw v Hv) as (k & -> & Hk). rewrite Hx, Hk. reflexivity.
  - intros t s ps enc b v H1 H2 Hv. exists v. split; [exact Hv|]. intros r Hm Hp Hx. cbn in Hm, Hp. injection Hm as Hm Hs. subst. apply shows_data; [|exact H1].
    unfold entity. destruct (e_mime_type r); congruence.
  - intros s ps enc b boundary text parts ts Hb Hcr Hv Hc Ht _ (rs & Hrs & Hsh). exists text. split; [exact Hv|]. intros r Hm Hp Hx. cbn in Hm, Hp. injection Hm as Hm Hs. subst s.
    apply shows_parts with (rs := rs); [|exact Hsh]. pose proof (Hp (bs "boundary")) as Hq. unfold bytes, byte in *. rewrite Hb in Hq. eapply (multipart_inverts E boundary parts text r rs); auto.
  - exists []. split; constructor.
  - intros c hs c' b t cs ts Hh Hb _ (v & Hv & IH) _ (rs & Hrs & Hsh). destruct (part_forward E c hs c' b v HE Hh Hb Hv) as (r & r' & H1 & H2 & H3 & H4).
    exists (r' :: rs). split; constructor; auto. destruct H2 as [P1 _ _ _ _ _]. apply IH.
    + rewrite <- P1. destruct H3. reflexivity.
    + rewrite <- P1. destruct H3. cbn. assumption.
    + destruct H3. exact H4.
Qed.
(* what is shown is determined by the entity *)
Scheme shows_ind' := Minimality for shows Sort Prop with shows_all_ind' := Minimality for shows_all Sort Prop.
Combined Scheme shows_both_ind from shows_ind', shows_all_ind'.
Lemma shows_unique : forall E, (forall r t, shows E r t -> forall t', shows E r t' -> t = t') /\ (forall rs ts, shows_all E rs ts -> forall ts', shows_all E rs ts' -> ts = ts').
Proof.
  intros E. apply shows_both_ind.
  - intros r s v H t' H'. inversion H'; subst; congruence.
  - intros r H H0 t' H'. inversion H'; subst; congruence.
  - intros r s rs ts H _ IH t' H'. inversion H' as [r0 s0 v0 H0|r0 H0|r0 s0 rs0 ts0 H0 H1]; subst; try congruence. rewrite H in H0. injection H0 as <- <-. now rewrite (IH _ H1).
  - intros ts' H. now inversion H.
  - intros r t rs ts _ IH _ IHs ts' H. inversion H as [|? t0 ? ts0 H1 H2]; subst. now rewrite (IH _ H1), (IHs _ H2).
Qed.

(* ---- writing ---- *)
Lemma type_written : forall E c t s n v, env_ok E -> clear_keyword mime_types CUnknown c t -> lower_token s ->
  chars1 (fun x => mime_token_char x /\ x <> 42) n -> map fold_case n = n -> mime_token v ->
  exists h l, rfc_header "Content-Type" (clear_content_type E) h (t, s, l) /\ map_get l n = Some v.
Proof.
  intros E c t s n v HE Hk [Hs Hl] Hn Hf Hv. set (raw := [(n, None, false, v)] : list param).
  assert (Hw : many_of written_param (bs "; " ++ n ++ bs "=" ++ v) raw).
  { rewrite <- (app_nil_r (bs "; " ++ n ++ bs "=" ++ v)). constructor; [|constructor]. rewrite <- Hf at 2. apply (written_param_intro n None false n v v); auto; [now split|discriminate|now constructor]. }
  assert (Hm : forall k, stands_for (most_segments E) raw k (last_of (values_of raw k))) by (intros k; apply stands_plain; reflexivity).
  destruct (written_params_ok _ raw Hw) as [Hc Hr]. destruct (stands_params E raw _ (ok_hash E HE) Hr Hm) as (l & Hp & Hg).
  exists (bs "Content-Type" ++ [58] ++ (bs " " ++ c ++ bs "/" ++ s ++ (bs "; " ++ n ++ bs "=" ++ v) ++ []) ++ CRLF), l. split.
  - constructor; [reflexivity|]. rewrite <- Hl at 2. econstructor; eauto; [now apply (stands_limit E raw _ Hm)|apply no_inline].
  - rewrite Hg. unfold raw, values_of. cbn [map concat]. rewrite bytes_eqb_refl. reflexivity.
Qed.
Lemma encoding_written : forall n e, In (n, e) mime_encodings -> exists h, rfc_header "Content-Transfer-Encoding" clear_encoding h e.
Proof.
  intros n e H. exists (bs "Content-Transfer-Encoding" ++ [58] ++ (bs " " ++ n ++ []) ++ CRLF). constructor; [reflexivity|]. constructor; [auto| |apply no_inline]. apply (clear_known _ _ n n e); auto. reflexivity.
Qed.
Lemma writable_keyword : forall t, writable_type t -> exists c, clear_keyword mime_types CUnknown c t.
Proof.
  intros t [n t' Hi _ _|n [Hn Hf] Hno].
  - exists n. apply (clear_known _ _ n n t'); auto. reflexivity.
  - exists n. rewrite <- Hf at 2. apply clear_other; auto. intros k a x y Hi E Hs. apply (Hno k a x y); auto. subst n. rewrite map_app in Hf.
    assert (Hx : map fold_case x = x) by (apply (f_equal (firstn (length x))) in Hf; rewrite firstn_app_exact in Hf; rewrite <- (map_length fold_case x) in Hf at 1; rewrite firstn_app_exact in Hf; exact Hf).
    unfold same_nocase in Hs. rewrite Hx in Hs. rewrite Hs. cbn in Hi. repeat (destruct Hi as [Hi|Hi]; [injection Hi as <- _; reflexivity|]). destruct Hi.
Qed.
Lemma long_boundary : forall b p, (length p < length b)%nat -> clean b p.
Proof.
  intros b p H (x & y & E). apply (f_equal (@length N)) in E. rewrite !app_length in E. unfold dash_boundary in E. rewrite !app_length in E. cbn [length bs] in E. lia.
Qed.
Definition total (cs : list bytes) : nat := length (concat cs).
Lemma all_clean : forall cs b, (total cs < length b)%nat -> Forall (clean b) cs.
Proof.
  induction cs as [|c cs IH]; intros b H; constructor; unfold total in *; cbn [concat] in H; rewrite app_length in H; [apply long_boundary|apply IH]; lia.
Qed.
Scheme writable_ind' := Minimality for writable Sort Prop with writables_ind' := Minimality for writables Sort Prop.
Combined Scheme writable_both_ind from writable_ind', writables_ind'.
Lemma part_names_text : chars1 (fun x => mime_token_char x /\ x <> 42) (bs "boundary") /\ chars1 (fun x => mime_token_char x /\ x <> 42) (bs "charset") /\ mime_token (bs "utf-8").
Proof.
  repeat apply conj; try discriminate; repeat (apply Forall_cons; [first [split; [|discriminate]|idtac]; unfold mime_token_char; cbn; split; [lia|cbn; intuition discriminate]|]); constructor.
Qed.
Theorem trees_written : forall E, env_ok E ->
  (forall t, writable t -> exists h1 ty h2 enc b, rfc_header "Content-Type" (clear_content_type E) h1 ty /\
     rfc_header "Content-Transfer-Encoding" clear_encoding h2 enc /\ content E ty enc b t) /\
  (forall ts, writables ts -> exists cs, all_parts E cs ts).
Proof.
  intros E HE. destruct part_names_text as (Nb & Nc & Nu). destruct (encoding_written (bs "base64") Base64Enc) as [h64 H64]; [cbn; tauto|]. destruct (encoding_written (bs "7bit") SevenBit) as [h7 H7]; [cbn; tauto|].
  apply writable_both_ind.
  - intros s v Hs Hv. destruct (type_written E (bs "text") CText s (bs "charset") (bs "utf-8") HE) as (h & l & H1 & H2); auto; [apply (clear_known _ _ (bs "text")); [now left|reflexivity]|].
    exists h, (CText, s, l), h64, Base64Enc, (b64_encoding v). split; [exact H1|]. split; [exact H64|]. apply content_text with (cs := bs "utf-8") (raw := v); auto.
    + constructor. apply encoding_decoding. now apply utf8_wf.
    + change (map fold_case (bs "utf-8")) with (bs "utf-8"). now constructor.
  - intros t s v Ht Hs Hv. destruct (writable_keyword t Ht) as [c Hc]. destruct (type_written E c t s (bs "charset") (bs "utf-8") HE) as (h & l & H1 & H2); auto.
    exists h, (t, s, l), h64, Base64Enc, (b64_encoding v). split; [exact H1|]. split; [exact H64|]. apply content_data.
    + destruct Ht; [assumption|discriminate].
    + destruct Ht; [assumption|discriminate].
    + constructor. now apply encoding_decoding.
  - intros s ts Hs _ (cs & Hcs). set (bd := repeat 97 (S (total cs))).
    destruct (type_written E (bs "multipart") CMultipart s (bs "boundary") bd HE) as (h & l & H1 & H2); auto; [apply (clear_known _ _ (bs "multipart")); [right; now left|reflexivity]|..].
    { split; [discriminate|]. apply Forall_forall. intros x Hx. apply repeat_spec in Hx. subst x. unfold mime_token_char. cbn. split; [lia|cbn; intuition discriminate]. }
    exists h, (CMultipart, s, l), h7, SevenBit, ([] ++ parts_text bd cs ++ closing_delimiter bd ++ []). split; [exact H1|]. split; [exact H7|].
    assert (L : length bd = S (total cs)) by apply repeat_length.
    apply content_parts with (boundary := bd) (text := [] ++ parts_text bd cs ++ closing_delimiter bd ++ []) (parts := cs); auto.
    + intros X. apply repeat_spec in X. discriminate.
    + constructor.
    + apply all_clean. lia.
    + apply multipart_preamble; [apply long_boundary; cbn [length]; lia|]. intros (x & y & X). apply (f_equal (@length N)) in X. rewrite !app_length in X. unfold delimiter in X. rewrite !app_length in X. cbn [length CRLF bs] in X. lia.
  - exists []. constructor.
  - intros t ts _ (h1 & ty & h2 & enc & b & H1 & H2 & H3) _ (cs & Hcs). destruct ty as [[ty s] l].
    exists (((h1 ++ h2 ++ []) ++ CRLF ++ b) :: cs). apply all_parts_cons with (hs := [HType ty s l; HEncoding enc]) (b := b); auto.
    + constructor; [now constructor|]. constructor; [now constructor|]. constructor.
    + now right.
Qed.

(* ---- mails ---- *)
Lemma same_type_only : forall fs fs', Forall2 same_field fs fs' -> same_type_t (type_of (only is_content_type fs)) (type_of (only is_content_type fs')).
Proof.
  intros fs fs' F. unfold only, pick. induction F as [|f f' fs fs' H F IH]; [split; [reflexivity|apply same_map_refl]|]. cbn [map concat]. destruct H as [f| |]; cbn [is_content_type opt_list app hd_error]; auto.
  - destruct f; cbn [is_content_type opt_list app hd_error type_of]; auto. split; [reflexivity|apply same_map_refl].
  - split; [reflexivity|]. intros n. apply H.
Qed.
Theorem mail_tree : forall E data fs b e t, env_ok E -> f_mime E = true -> clear_message E data fs b ->
  content E (type_of (only is_content_type fs)) (encoding_of (only is_cte fs)) (content_of b) t -> parse E data = Ok e ->
  exists r, mime_entity e = Some r /\ shows E r t.
Proof.
  intros E data fs b e t HE HF HM HC HP. destruct (message_forward E data fs b HE HM) as (fs' & H & R); [congruence|].
  apply (parse_iff_email E data fs' b e HE H) in HP. pose proof (of_mime _ _ _ _ HP) as X. rewrite HF in X. destruct X as (v & Hv & He).
  exists {| e_mime_type := fst (fst (type_of (only is_content_type fs'))); e_subtype := snd (fst (type_of (only is_content_type fs')));
            e_description := only is_content_description fs'; e_id := only is_content_id fs'; e_parameters := snd (type_of (only is_content_type fs'));
            e_disposition := only is_content_disposition fs'; e_value := v; e_additional_headers := [] |}.
  split; [exact He|]. destruct (trees_read E HE) as [T _]. destruct (T _ _ _ _ HC) as (w & Hw & G). pose proof (same_type_only fs fs' R) as [S1 S2].
  assert (Hc : only is_cte fs = only is_cte fs') by (apply same_only; [same_sel|exact R]).
  apply G; cbn [e_mime_type e_subtype e_parameters e_value].
  - rewrite S1. now destruct (fst (type_of (only is_content_type fs'))).
  - exact S2.
  - destruct b as [b|]; cbn [content_of] in Hw.
    + rewrite <- Hc in Hv. apply (transfer_functional E) in Hv, Hw. congruence.
    + subst v. apply (transfer_functional E) in Hw. destruct (encoding_of (only is_cte fs)); cbn in Hw; congruence.
Qed.
Theorem tree_mailed : forall E t m d, env_ok E -> f_mime E = true -> writable t -> writable_mailbox m -> date_in_range d ->
  exists data e r, parse E data = Ok e /\ (f_from E = true -> from e = [m]) /\ (f_date E = true -> date_of e = Some d) /\
    mime_entity e = Some r /\ shows E r t.
Proof.
  intros E t m d HE HF Ht Hm Hd. destruct (trees_written E HE) as [W _]. destruct (W t Ht) as (h1 & [[ty s] l] & h2 & enc & b & H1 & H2 & H3).
  destruct (date_text d Hd) as [cd Hcd]. destruct (mailboxes_text (f_mime E) (encoded E) (f_compatibility_fixes E) [m]) as [cf Hcf]; [split; [discriminate|constructor; [exact Hm|constructor]]|].
  set (fs := (if f_date E then [FDate d] else []) ++ (if f_from E then [FFrom [m]] else []) ++ [FContentType ty s l; FContentTransferEncoding enc]).
  assert (HH : exists c, many_of (clear_field E) c fs).
  { apply many_text with (W := fun f => exists c, clear_field E c f); [auto|]. unfold fs. apply Forall_app. split; [|apply Forall_app; split].
    - destruct (f_date E) eqn:F; constructor; [|constructor]. eexists. apply clear_date; [exact F|]. apply header_text. exact Hcd.
    - destruct (f_from E) eqn:F; constructor; [|constructor]. eexists. apply clear_from; [exact F|]. apply header_text. exact Hcf.
    - constructor; [exists h1; now constructor|]. constructor; [exists h2; now constructor|constructor]. }
  destruct HH as [c Hc]. assert (HM : clear_message E ([] ++ c ++ CRLF ++ b) fs (Some b)) by (apply (clear_message_intro E [] [] c fs); auto; constructor).
  assert (O1 : only is_content_type fs = Some (ty, s, l)) by (unfold fs, only, pick; destruct (f_date E), (f_from E); reflexivity).
  assert (O2 : only is_cte fs = Some enc) by (unfold fs, only, pick; destruct (f_date E), (f_from E); reflexivity).
  destruct (message_accepted E _ fs (Some b) HE HM) as (fs' & e & F & P & Q).
  { destruct (trees_read E HE) as [T _]. destruct (T _ _ _ _ H3) as (v & Hv & _). constructor.
    - unfold fs, pick. destruct (f_date E), (f_from E); cbn; repeat (constructor; [cbn; intuition discriminate|]); constructor.
    - intros X. unfold fs. rewrite X. unfold pick. destruct (f_date E); discriminate.
    - intros X. unfold fs. rewrite X. discriminate.
    - intros X. right. exists m. unfold fs. rewrite (ok_sender E HE X). unfold pick. destruct (f_date E); reflexivity.
    - intros _ t' [= <-]. rewrite O2. eauto.
    - congruence. }
  destruct (mail_tree E _ fs (Some b) e t HE HF HM) as (r & Hr & Hs); [rewrite O1, O2; exact H3|exact P|].
  eexists. exists e, r. split; [exact P|]. split; [|split; [|split; assumption]].
  - intros X. pose proof (of_from _ _ _ _ Q) as Y. rewrite X in Y. rewrite <- (same_only _ is_from fs fs') in Y by (auto; same_sel). unfold fs, only, pick in Y. rewrite X in Y. destruct (f_date E); cbn in Y; congruence.
  - intros X. pose proof (of_date _ _ _ _ Q) as Y. rewrite X in Y. destruct Y as [Y _]. rewrite <- (same_only _ is_date fs fs') in Y by (auto; same_sel). rewrite <- Y. unfold fs. rewrite X. reflexivity.
Qed.

(* Proofs for C57: parts and entities. *)
From Coq Require Import Lia ZifyBool ZifyNat ZifyN.
From Verif Require Import SafetyProofs Base Utf8 CharSets Combinators Whitespace QuotedString EncodedWord Common Time Address Percent Charset MimeFields Fields Message Entity Email Envs
  Rfc5322 Rfc2047 Post CodecSpec RfcFields SoundBase SoundTime SoundAddr TagNoCase ParamProofs SoundFields EmailSpec SoundMessage EmailProofs MessageFacts Steps Complete CompleteFields Forward ForwardText
  ForwardMime ForwardParams ForwardParts ForwardMimeFields ForwardTrace ForwardFields ForwardMessage HeaderFacts Local LocalFacts Writers WriteFacts LessFacts LineSpec LineFacts PercentProofs ExactFacts MimeExactSpec MimeExactParts MimeExactBack MimeExactHeads
  PhraseSpec MimeExactFields MimeExactFacts MultipartSpec EntitySpec EntityProofs MultipartRound ParamSpec OrderFacts CutSpec CutFacts TreeSpec TreeFacts RangeWrite KeenFacts PartExactSpec
  Charset PercentProofs EntityProofs SoundMessage CutSpec CutFacts RefuseSpec PartExactFacts RefuseFacts.
Local Open Scope N_scope.

Section Parts.
Variable E : env.
Hypothesis HE : env_ok E.
Hypothesis HM : f_mime E = true.
Hypothesis HD : debug E = false.
Definition no_part_headers : error := Explicit "TAG ERROR: A MIME entity header part must be followed by a CRLF sequence.".
Lemma raw_no_crash : forall i k, raw_entity E i <> Crash k.
Proof. intros i k R. pose proof (sound_raw_entity E i (ok_hash E HE)) as S. rewrite R in S. destruct S as [S _]. congruence. Qed.
Lemma headers_total : forall i, exists r hs, many (entity_header_parser E) i = Ok (r, hs).
Proof.
  intros i. destruct (many (entity_header_parser E) i) as [[r hs]|e|k] eqn:M; [eauto|exfalso; unfold many in M; now apply many_fuel_no_err in M|].
  exfalso. apply (raw_no_crash i k). unfold raw_entity, header_part. now rewrite M.
Qed.
Lemma raw_cases : forall i, exists r0 hs, many (entity_header_parser E) i = Ok (r0, hs) /\
  ((exists b, content_after r0 b /\ part_text_read E i hs b /\ forall err, raw_entity E i = Err err <-> decode_value E b (encoding_of (last_some of_encoding hs)) = Err err) \/
   ((forall b, ~ content_after r0 b) /\ raw_entity E i = Err no_part_headers)).
Proof.
  intros i. destruct (headers_total i) as (r0 & hs & M). exists r0, hs. split; [exact M|].
  assert (HP : header_part E i = match r0 with [] => Ok (0%nat, acc_of_headers hs) | _ :: _ => let* (i, _) := tag CRLF "TAG ERROR: A MIME entity header part must be followed by a CRLF sequence." r0 in Ok (length i, acc_of_headers hs) end).
  { unfold header_part. rewrite M. cbn [bind]. change header_acc0 with (acc_of_headers []). rewrite set_headers_spec. reflexivity. }
  pose proof M as M2. apply many_inv in M2; [|exact (progress_header E HE)].
  assert (C : (exists b, content_after r0 b /\ header_part E i = Ok (length b, acc_of_headers hs)) \/ ((forall b, ~ content_after r0 b) /\ header_part E i = Err no_part_headers)).
  { rewrite HP. destruct r0 as [|x r0]; [left; exists []; split; [now left|reflexivity]|].
    destruct (tag_inv CRLF "TAG ERROR: A MIME entity header part must be followed by a CRLF sequence." (x :: r0)) as [(r' & X & T)|(N & T)]; rewrite T; cbn [bind].
    - left. exists r'. split; [now right|reflexivity].
    - right. split; [|reflexivity]. intros b [[X _]|X]; [discriminate|]. rewrite X, starts_with_app in N. discriminate. }
  destruct C as [(b & Hb & HP')|(N & HP')]; [left|right; split; [exact N|unfold raw_entity; now rewrite HP']].
  exists b. split; [exact Hb|]. pose proof (after_bare _ _ Hb) as Br.
  destruct (steps_texts_of _ _ _ (part_read_inv E HE HM HD) (part_header_on E HE) _ _ _ M2 (ends_no_blank _ (bare_wsp _ Br))) as (c & -> & Hc & _).
  split; [exists c, r0; auto|]. intros err.
  assert (X : exists y, c ++ r0 = y ++ b). { destruct Hb as [[-> ->]| ->]; [exists c; reflexivity|exists (c ++ CRLF); now rewrite <- app_assoc]. }
  destruct X as [y X]. unfold raw_entity. rewrite HP'. cbn [bind]. rewrite X. unfold usize_sub. rewrite app_length.
  destruct (Nat.ltb_spec (length y + length b) (length b)); [lia|]. cbn [bind]. replace (length y + length b - length b)%nat with (length y) by lia. rewrite index_from_app. cbn [bind].
  cbn [acc_of_headers h_encoding h_type h_description h_id h_disposition h_additional].
  change (match last_some of_encoding hs with Some e => e | None => SevenBit end) with (encoding_of (last_some of_encoding hs)).
  destruct (match last_some of_type hs with Some x => x | None => default_content_type end) as [[t s] p].
  destruct (decode_value E b (encoding_of (last_some of_encoding hs))) as [v|e|k]; cbn [bind]; split; intros Q; inversion Q; reflexivity.
Qed.
Lemma reading_headers : forall i hs b r0 l, part_text_read E i hs b -> many (entity_header_parser E) i = Ok (r0, l) -> content_after r0 b /\ Forall2 same_header hs l.
Proof.
  intros i hs b r0 l (c & c' & -> & H & Hb) M. destruct (part_header_none E c' (after_bare _ _ Hb)) as [e He].
  destruct (reads_steps E HE HM HD c hs H c' [] c' (or_intror (after_bare _ _ Hb)) (steps_stop _ _ _ He)) as (l' & S & F). rewrite app_nil_r in F. rewrite (many_steps _ _ _ _ _ S) in M. inversion M; subst. auto.
Qed.
Lemma same_encoding : forall hs l, Forall2 same_header hs l -> last_some of_encoding hs = last_some of_encoding l.
Proof.
  intros hs l F. apply same_option_eq, same_last; [same_sel_h|exact F].
Qed.
Lemma content_fun : forall c b b', content_after c b -> content_after c b' -> b = b'.
Proof. intros c b b' [[-> ->]| ->] [[X ->]|X]; try discriminate; [reflexivity|]. now apply app_inv_head in X. Qed.
Theorem refused_part_iff : forall i err, raw_entity E i = Err err <-> refused_part E i err.
Proof.
  intros i err. destruct (raw_cases i) as (r0 & l & M & [(b & Hb & R & X)|(N & X)]).
  - rewrite X. split.
    + intros D. pose proof (decode_value_spec E b (encoding_of (last_some of_encoding l))) as S. rewrite D in S. destruct S as [[w ->] _]. apply (content_faults E) in D. eapply refused_part_content; eauto.
    + intros [N|hs b' w R' F]; [exfalso; eapply N; eauto|]. destruct (reading_headers _ _ _ _ _ R' M) as [Hb' S]. rewrite (content_fun _ _ _ Hb' Hb) in F. rewrite (same_encoding _ _ S) in F. now apply (content_faults E).
  - rewrite X. split.
    + intros [= <-]. apply refused_part_headers. intros hs b R. destruct (reading_headers _ _ _ _ _ R M) as [Hb _]. now apply N in Hb.
    + intros [_|hs b w R _]; [reflexivity|]. destruct (reading_headers _ _ _ _ _ R M) as [Hb _]. now apply N in Hb.
Qed.

(* ---- entities ---- *)
Lemma raw_entities_refused : forall parts err, raw_entities E parts = Err err <-> exists ps p qs, parts = ps ++ p :: qs /\ Forall (fun i => forall e, ~ refused_part E i e) ps /\ refused_part E p err.
Proof.
  induction parts as [|p parts IH]; intros err; cbn [raw_entities].
  - split; [discriminate|]. intros (ps & p & qs & X & _). destruct ps; discriminate.
  - destruct (raw_entity E p) as [x|e|k] eqn:R; cbn [bind].
    + assert (NR : forall e, ~ refused_part E p e) by (intros e Y; apply refused_part_iff in Y; congruence).
      transitivity (raw_entities E parts = Err err); [destruct (raw_entities E parts); cbn [bind]; split; intros Q; inversion Q; reflexivity|]. rewrite IH. split.
      * intros (ps & q & qs & -> & F & Q). exists (p :: ps), q, qs. split; [reflexivity|]. split; [now constructor|exact Q].
      * intros (ps & q & qs & X & F & Q). destruct ps as [|p' ps]; [injection X as <- <-; now apply NR in Q|]. injection X as <- ->. inversion F; subst. exists ps, q, qs. auto.
    + split.
      * intros [= <-]. exists [], p, parts. split; [reflexivity|]. split; [constructor|]. now apply refused_part_iff.
      * intros (ps & q & qs & X & F & Q). destruct ps as [|p' ps]; [injection X as <- <-; apply refused_part_iff in Q; congruence|]. injection X as <- ->. inversion F as [|? ? F1 F2]; subst. exfalso. apply (F1 e). now apply refused_part_iff.
    + exfalso. exact (raw_no_crash p k R).
Qed.
Theorem refused_entity_iff : forall r err, entity E r = Err err <-> refused_entity E r err.
Proof.
  intros r err. unfold entity. split.
  - destruct (e_mime_type r) eqn:T; try discriminate.
    + destruct (map_get (e_parameters r) (bs "charset")) as [cs|] eqn:C; [|discriminate]. destruct (find_charset (lowercase cs)) as [k|] eqn:F; [|discriminate].
      destruct (decode_charset E k (e_value r)) as [v|e|c] eqn:D; cbn [bind]; intros H; try discriminate. injection H as <-.
      assert (e = Unknown "Invalid text encoding"). { unfold decode_charset, str_checked in D. destruct k; [|discriminate]. destruct (utf8_valid (e_value r)); [discriminate|]. now injection D. } subst e.
      rewrite lowercase_fold in F. apply (refused_text E r cs); auto; [eapply find_charset_names; eauto|]. intros v V. apply (charset_value_ok E _ k _ _ F) in V. congruence.
    + destruct (map_get (e_parameters r) (bs "boundary")) as [b|] eqn:B.
      * destruct (multipart_outcome E b (e_value r) _ B) as [(parts & C & ->)|(U & ->)]; cbn [bind].
        -- intros H. assert (X : raw_entities E parts = Err err) by (destruct (raw_entities E parts); cbn [bind] in H; inversion H; reflexivity). apply raw_entities_refused in X as (ps & p & qs & -> & F & Q). eapply refused_first; eauto.
        -- intros [= <-]. eapply refused_unclosed; eauto.
      * unfold parse_multipart. rewrite B. cbn [ok_or bind]. intros [= <-]. now apply refused_boundary.
  - intros H. destruct H as [T B|b T B U|b ps p qs err T B C F Q|cs T C I N]; rewrite T.
    + unfold parse_multipart. rewrite B. reflexivity.
    + destruct (multipart_outcome E b (e_value r) _ B) as [(parts & C & _)|(_ & ->)]; [exfalso; eapply cut_not_unclosed; eauto|reflexivity].
    + destruct (multipart_outcome E b (e_value r) _ B) as [(parts & C' & ->)|(U & _)]; [|exfalso; eapply cut_not_unclosed; eauto]. rewrite (cut_parts_fun _ _ _ _ C' C). rewrite (proj2 (raw_entities_refused _ err)); [reflexivity|eauto 6].
    + rewrite C. rewrite lowercase_fold. destruct (charset_names_find _ I) as [k K]. rewrite K. destruct (decode_charset E k (e_value r)) as [v|e|c] eqn:D.
      * exfalso. apply (N v). now apply (charset_value_ok E _ k _ _ K).
      * unfold decode_charset, str_checked in D. destruct k; [|discriminate]. destruct (utf8_valid (e_value r)); [discriminate|]. injection D as <-. reflexivity.
      * unfold decode_charset, str_checked in D. destruct k; [|discriminate]. destruct (utf8_valid (e_value r)); discriminate.
Qed.
End Parts.

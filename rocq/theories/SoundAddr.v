(* Soundness, part 3: encoded words, phrases, addresses, message identifiers. *)
From Coq Require Import ZArith Lia ZifyBool ZifyNat ZifyN.
From Verif Require Import Base Utf8 CharSets Combinators Whitespace QuotedString Base64 QuotedPrintable Charset EncodedWord
  Common Address Rfc5322 Rfc2047 CodecSpec RfcFields Post CodecArith Base64Proofs QPProofs PercentProofs SoundBase SoundTime.
Local Open Scope N_scope.


Lemma especials_spec : forall c, especials c = true <-> In c (bs "()<>@,;:\/[]?.=" ++ [34]).
Proof.
  intros. unfold especials. rewrite orb_true_iff, one_of_spec, in_app_iff. cbn [In]. unfold DQUOTE.
  rewrite N.eqb_eq. intuition.
Qed.
Lemma ew_token_spec : forall c, (32 <? c) && (c <? 127) && negb (especials c) = true <-> ew_token_char c.
Proof.
  intros. unfold ew_token_char. rewrite <- especials_spec. rewrite !andb_true_iff, negb_true_iff, N.ltb_lt, N.ltb_lt. destruct (especials c); intuition (try lia; congruence).
Qed.
Lemma ew_charset_spec : forall c, (32 <? c) && (c <? 127) && negb (especials c) && negb (c =? 42) = true <-> ew_charset_char c.
Proof. intros. unfold ew_charset_char. rewrite andb_true_iff, ew_token_spec, negb_true_iff, N.eqb_neq. tauto. Qed.
Lemma ew_text_spec : forall c, (32 <? c) && (c <=? 126) && negb (c =? 63) = true <-> ew_text_char c.
Proof. intros. unfold ew_text_char. lia. Qed.

Lemma sound_ew_charset : forall K i, post K (ew_charset i) i (fun c v => v = map fold_case c /\ chars1 ew_charset_char c).
Proof.
  intros. unfold ew_charset. eapply post_bind; [apply (sound_take_while1 K _ ew_charset_char _ ew_charset_spec)|].
  - intros c H. apply ew_charset_spec in H as [[H _] _]. unfold ascii_byte. lia.
  - intros c r a _ [-> H]. cbn beta iota. apply post_ok. rewrite app_nil_r. split; [apply lowercase_fold|auto].
Qed.
Lemma sound_ew_encoding : forall K i, post K (ew_encoding i) i (fun c v => v = map fold_case c /\ chars1 ew_token_char c).
Proof.
  intros. unfold ew_encoding. eapply post_bind; [apply (sound_take_while1 K _ ew_token_char _ ew_token_spec)|].
  - intros c H. apply ew_token_spec in H as [H _]. unfold ascii_byte. lia.
  - intros c r a _ [-> H]. cbn beta iota. apply post_ok. rewrite app_nil_r. split; [apply lowercase_fold|auto].
Qed.

Ltac steptag := eapply post_bind; [apply post_tag|]; let c := fresh "c" in let r := fresh "r" in
  intros c r [] _ ->; cbn beta iota.

Lemma sound_encoded_word : forall E K i, post K (encoded_word E i) i (rfc_encoded_word (textcode E)).
Proof.
  intros. unfold encoded_word. steptag. step (sound_ew_charset K). destruct H as [-> Hcs].
  eapply post_bind with (P := fun c _ => ew_language c).
  { eapply post_weaken.
    - apply post_optional. apply (post_pair_p _ _ K _ _ _ (fun c _ => c = bs "*") (fun c v => v = map fold_case c /\ chars1 ew_token_char c)).
      + apply post_tag.
      + intros. apply sound_ew_encoding.
    - intros c' [[u e]|].
      + intros (c1 & c2 & -> & -> & _ & H). now constructor.
      + intros ->. constructor. }
  intros lang rl o _ Hlang. cbn beta iota. steptag. step (sound_ew_encoding K). destruct H as [-> He]. steptag.
  eapply post_bind; [apply (sound_take_while1 K _ ew_text_char _ ew_text_spec)|].
  { intros x Hx. apply ew_text_spec in Hx as [Hx _]. unfold ascii_byte. lia. }
  intros text rt a _ [-> Ht]. cbn beta iota. steptag.
  eapply post_bind_p with (P := fun raw => ew_decodes c0 text raw).
  { destruct (bytes_eqb (map fold_case c0) (bs "b")) eqn:Hb.
    - apply bytes_eqb_eq in Hb. pose proof (decode_base64_spec E text) as D. destruct (b64_decoding text) eqn:Hd.
      + rewrite D. cbn. now constructor.
      + destruct D as [e ->]. exact I.
    - destruct (bytes_eqb (map fold_case c0) (bs "q")) eqn:Hq; [|exact I].
      apply bytes_eqb_eq in Hq. rewrite decode_header_qp_spec. cbn. now constructor. }
  intros raw Hraw.
  eapply post_bind_p with (P := fun v => charset_decodes (textcode E) (map fold_case c) raw v).
  { destruct (find_charset (map fold_case c)) as [k|] eqn:Hk; [|exact I].
    destruct (decode_charset_no_crash E k raw) as [[v Hv]|Hv]; rewrite Hv; [|exact I].
    cbn. now apply (charset_value_ok E _ k). }
  intros v Hv. apply post_ok. rewrite app_nil_r. econstructor; eauto.
Qed.
Lemma encoded_word_nonempty : forall tc c v, rfc_encoded_word tc c v -> c <> [].
Proof. intros tc c v H. inversion H. discriminate. Qed.

(* ---- phrases ---- *)
Lemma sound_phrase_word : forall E K i, post K (phrase_word E i) i (rfc_phrase_word (encoded E)).
Proof.
  intros. unfold phrase_word. destruct (f_mime E) eqn:HE.
  - apply post_Forall_match. repeat apply Forall_cons; [| |apply Forall_nil].
    + step (sound_ofws K). eapply post_weaken; [apply sound_encoded_word|]. intros c' v Hv. eapply phrase_encoded; eauto. now split.
    + eapply post_weaken; [apply sound_word|]. now constructor.
  - eapply post_weaken; [apply sound_word|]. now constructor.
Qed.
Lemma phrase_word_nonempty : forall E c v, rfc_phrase_word (encoded E) c v -> c <> [].
Proof.
  intros E c v [c' v' H|w x c' v' H [_ H']].
  - eapply word_nonempty; eauto.
  - intros K. apply app_eq_nil in K as [_ ->]. now apply encoded_word_nonempty in H'.
Qed.
Lemma sound_phrase : forall E K i, post K (phrase E i) i (rfc_phrase (encoded E)).
Proof.
  intros. unfold phrase. apply post_many1; [intros; eapply phrase_word_nonempty; eauto|]. intros. apply sound_phrase_word.
Qed.
Lemma phrase_nonempty : forall E c v, rfc_phrase (encoded E) c v -> c <> [].
Proof.
  intros E c v [Hne H]. destruct H as [|c a cs l Hc Hl]; [congruence|]. intros K. apply app_eq_nil in K as [-> _].
  now apply phrase_word_nonempty in Hc.
Qed.

(* ---- unstructured text with encoded words ---- *)
Lemma mime_utext_vchars : forall tc a b v, Forall rfc_VCHAR a -> mime_utext tc false b v -> mime_utext tc false (a ++ b) (a ++ v).
Proof.
  intros tc a b v H Hb. induction H as [|x a Hx Ha IH]; auto.
  change ((x :: a) ++ b) with ([] ++ [x] ++ (a ++ b)). change ((x :: a) ++ v) with ([] ++ [x] ++ (a ++ v)).
  apply mime_utext_char; auto. constructor.
Qed.
Lemma sound_mime_unstructured_loop : forall E K n after i, (length i < n)%nat ->
  post K (mime_unstructured_loop E n after i) i (mime_utext (textcode E) after).
Proof.
  intros E K n. induction n as [|n IH]; intros after i Hn; [lia|]. cbn [mime_unstructured_loop].
  eapply post_attempt with (P := fun c p => c <> [] /\ exists w x t, c = w ++ t /\ rfc_oFWS w x /\
     ((snd p = true /\ exists d, rfc_encoded_word (textcode E) t d /\ fst p = (if after then [] else x) ++ d)
      \/ (snd p = false /\ chars1 rfc_VCHAR t /\ fst p = x ++ t))).
  - unfold mime_unstructured_step. step (sound_oblank K).
    eapply post_attempt; [apply sound_encoded_word| |].
    + intros t r' d _ Hd. assert (Hne := encoded_word_nonempty _ _ _ Hd).
      destruct after; apply post_ok; rewrite app_nil_r; (split; [intros E0; apply app_eq_nil in E0; tauto|]); exists c, a, t; eauto 10.
    + eapply post_attempt; [apply (sound_take_while1 K is_vchar rfc_VCHAR r vchar_spec vchar_ascii)| |exact I].
      intros t r' v _ [-> Hv]. apply post_ok. rewrite app_nil_r. pose proof Hv as [Hne _].
      split; [intros E0; apply app_eq_nil in E0; tauto|]. exists c, a, t. auto 10.
  - intros c r [text flag] -> (Hne & w & x & t & -> & Hw & Hd). cbn [fst snd] in Hd.
    assert (length r < n)%nat. { rewrite app_length in Hn. destruct (w ++ t); [congruence|]. cbn in Hn. lia. }
    eapply post_bind; [apply IH; auto|]. intros c' r' v _ Hv. cbn beta iota. apply post_ok. rewrite app_nil_r.
    destruct Hd as [(-> & d & Hd & ->)|(-> & [Ht1 Ht2] & ->)].
    + rewrite <- !app_assoc. now apply mime_utext_word.
    + destruct t as [|z t]; [congruence|]. inversion Ht2; subst. rewrite <- !app_assoc. cbn [app].
      change (w ++ z :: t ++ c') with (w ++ [z] ++ (t ++ c')). change (x ++ z :: t ++ v) with (x ++ [z] ++ (t ++ v)).
      apply mime_utext_char; auto. now apply mime_utext_vchars.
  - apply post_ok. constructor.
Qed.
Lemma sound_mime_unstructured : forall E K i, post K (mime_unstructured E i) i (mime_unstructured_text (textcode E)).
Proof.
  intros. unfold mime_unstructured. step (sound_mime_unstructured_loop E K); [lia|].
  step (sound_blanks K). apply post_ok. rewrite app_nil_r. now constructor.
Qed.

(* ---- message identifiers ---- *)
Lemma sound_message_id : forall E K i, post K (message_id E i) i (rfc_msg_id (f_compatibility_fixes E)).
Proof.
  intros. unfold message_id. step (sound_ocfws K). steptag. step (sound_dot_atom_text E K). destruct H0 as [-> H0]. steptag.
  eapply post_bind with (P := rfc_id_right (f_compatibility_fixes E)).
  { apply post_Forall_match. repeat apply Forall_cons; [| |apply Forall_nil].
    - eapply post_weaken; [apply sound_dot_atom_text|]. intros ? ? [-> ?]. now constructor.
    - unfold no_fold_litteral. steptag. step (sound_take_while K is_dtext rfc_dtext r3 dtext_spec dtext_ascii).
      destruct H1 as [-> H1]. steptag. apply post_ok. rewrite app_nil_r. now constructor. }
  intros cd rd v _ Hv. cbn beta iota. steptag. step (sound_ocfws K). apply post_ok. rewrite app_nil_r. now constructor.
Qed.
Lemma msg_id_nonempty : forall b c v, rfc_msg_id b c v -> c <> [].
Proof. intros b c v H E. destruct H. apply app_eq_nil in E as [_ E]. discriminate. Qed.

(* ---- addresses ---- *)
Lemma sound_local_part : forall E K i, post K (local_part E i) i (rfc_local_part (f_compatibility_fixes E)).
Proof.
  intros. unfold local_part. apply post_Forall_match. repeat apply Forall_cons; [| |apply Forall_nil].
  - eapply post_weaken; [apply sound_dot_atom|]. now constructor.
  - eapply post_weaken; [apply sound_quoted_string|]. now apply local_quoted.
Qed.
Definition dchunk (t v : bytes) : Prop := exists w x, t = w ++ v /\ rfc_oFWS w x /\ chars1 rfc_dtext v.
Lemma sound_domain_literal_step : forall K i, post K (domain_literal_step i) i dchunk.
Proof.
  intros. unfold domain_literal_step. step (sound_ofws K).
  eapply post_weaken; [apply (sound_take_while1 K is_dtext rfc_dtext r dtext_spec dtext_ascii)|]. intros t v [-> Ht]. exists c. eauto.
Qed.
Lemma dbody_dtext : forall a b v, Forall rfc_dtext a -> rfc_dbody b v -> rfc_dbody (a ++ b) (a ++ v).
Proof.
  intros a b v H Hb. induction H as [|x a Hx Ha IH]; auto.
  change ((x :: a) ++ b) with ([] ++ [x] ++ (a ++ b)). change ((x :: a) ++ v) with ([x] ++ (a ++ v)).
  eapply dbody_cons; eauto. constructor.
Qed.
Lemma dbody_many : forall c l w v, many_of dchunk c l -> rfc_oFWS w v -> rfc_dbody (c ++ w) (concat l).
Proof.
  intros c l w v H Hw. induction H as [|c a cs l (w' & x & -> & H1 & Hne & H2) Hl IH].
  - cbn. econstructor; eauto.
  - cbn [concat]. rewrite <- !app_assoc. destruct a as [|z t]; [congruence|]. inversion H2; subst.
    change ((z :: t) ++ cs ++ w) with ([z] ++ (t ++ cs ++ w)). change ((z :: t) ++ concat l) with ([z] ++ (t ++ concat l)).
    eapply dbody_cons; eauto. now apply dbody_dtext.
Qed.
Lemma sound_domain_literal : forall K i, post K (domain_literal i) i rfc_domain_literal.
Proof.
  intros. unfold domain_literal. step (sound_ocfws K). steptag.
  eapply post_bind.
  { apply (post_collect_many K domain_literal_step dchunk); [|intros; apply sound_domain_literal_step].
    intros ? ? (w & x & -> & _ & Hne & _) E0. apply app_eq_nil in E0. tauto. }
  intros b r1 v _ (l & -> & Hl). cbn beta iota. step (sound_ofws K). steptag. step (sound_ocfws K). apply post_ok. rewrite app_nil_r.
  pose proof (dbody_many _ _ _ _ Hl H0) as B.
  replace (c ++ bs "[" ++ b ++ c0 ++ bs "]" ++ c1) with (c ++ [91] ++ (b ++ c0) ++ [93] ++ c1) by (rewrite <- !app_assoc; reflexivity).
  now constructor.
Qed.
Lemma sound_domain : forall E K i, post K (domain E i) i (rfc_domain (f_compatibility_fixes E)).
Proof.
  intros. unfold domain. apply post_Forall_match. repeat apply Forall_cons; [| |apply Forall_nil].
  - eapply post_weaken; [apply sound_dot_atom|]. now constructor.
  - eapply post_weaken; [apply sound_domain_literal|]. now apply domain_lit.
Qed.
Lemma sound_addr_spec : forall E K i, post K (addr_spec E i) i (rfc_addr_spec (f_compatibility_fixes E)).
Proof.
  intros. unfold addr_spec. step (sound_local_part E K). steptag. step (sound_domain E K). apply post_ok. rewrite app_nil_r. now constructor.
Qed.
Lemma addr_spec_nonempty : forall b c v, rfc_addr_spec b c v -> c <> [].
Proof. intros b c v H E. destruct H. apply app_eq_nil in E as [_ E]. discriminate. Qed.
Lemma sound_angle_addr : forall E K i, post K (angle_addr E i) i (rfc_angle_addr (f_compatibility_fixes E)).
Proof.
  intros. unfold angle_addr. step (sound_ocfws K). steptag. step (sound_addr_spec E K). steptag. step (sound_ocfws K).
  apply post_ok. rewrite app_nil_r. now constructor.
Qed.
Lemma angle_addr_nonempty : forall b c v, rfc_angle_addr b c v -> c <> [].
Proof. intros b c v H E. destruct H. apply app_eq_nil in E as [_ E]. discriminate. Qed.
Lemma sound_mailbox : forall E K i, post K (mailbox E i) i (rfc_mailbox (f_compatibility_fixes E) (encoded E)).
Proof.
  intros. unfold mailbox. apply post_Forall_match. repeat apply Forall_cons; [| |apply Forall_nil].
  - unfold name_addr. eapply post_bind; [apply post_optional, (sound_phrase E K)|]. intros c r o _ Ho. cbn beta iota.
    step (sound_angle_addr E K). apply post_ok. rewrite app_nil_r. destruct o as [n|].
    + now apply mailbox_named.
    + subst. now apply mailbox_angle.
  - apply post_pmap. eapply post_weaken; [apply sound_addr_spec|]. now apply mailbox_plain.
Qed.
Lemma mailbox_nonempty : forall E c v, rfc_mailbox (f_compatibility_fixes E) (encoded E) c v -> c <> [].
Proof.
  intros E c v [c1 n c2 a H1 H2|c' a H|c' a H] K.
  - apply app_eq_nil in K as [-> _]. now apply phrase_nonempty in H1.
  - subst. now apply angle_addr_nonempty in H.
  - subst. now apply addr_spec_nonempty in H.
Qed.

(* P *("," P), as the code parses it *)
Lemma comma_many : forall A (P : bytes -> A -> Prop) c a cs l, P c a ->
  many_of (fun c a => exists c', c = bs "," ++ c' /\ P c' a) cs l -> comma_list P (c ++ cs) (a :: l).
Proof.
  intros A P c a cs l Hc H. revert c a Hc. induction H as [|x b xs l (x' & -> & Hx) Hl IH]; intros c a Hc.
  - rewrite app_nil_r. now constructor.
  - rewrite <- app_assoc. constructor; auto.
Qed.
Lemma sound_comma_list : forall A K (p : parser A) P i, (forall j, post K (p j) j P) ->
  post K (let* (i, a) := p i in let* (i, l) := many (prefixed p (bs ",")) i in Ok (i, a :: l)) i (comma_list P).
Proof.
  intros A K p P i Hp. step Hp. eapply post_bind.
  { apply (post_many _ K _ (fun c a => exists c', c = bs "," ++ c' /\ P c' a)).
    - intros ? ? (c' & -> & _). discriminate.
    - intros. now apply post_prefixed. }
  intros c' r' l _ Hl. cbn beta iota. apply post_ok. rewrite app_nil_r. now apply comma_many.
Qed.
Lemma sound_mailbox_list : forall E K i, post K (mailbox_list E i) i (rfc_mailbox_list (f_compatibility_fixes E) (encoded E)).
Proof. intros. unfold mailbox_list. apply sound_comma_list. intros. apply sound_mailbox. Qed.
Lemma sound_group : forall E K i, post K (group E i) i (rfc_group (f_compatibility_fixes E) (encoded E)).
Proof.
  intros. unfold group. step (sound_phrase E K). steptag.
  eapply post_bind with (P := rfc_group_list (f_compatibility_fixes E) (encoded E)).
  { eapply post_attempt; [apply sound_mailbox_list| |].
    - intros c' r' l _ Hl. apply post_ok. rewrite app_nil_r. now constructor.
    - eapply post_attempt; [apply sound_cfws| |].
      + intros c' r' l _ Hl. apply post_ok. rewrite app_nil_r. apply group_list_empty. now constructor.
      + apply post_ok. apply group_list_empty. constructor. }
  intros c1 r1 l _ Hl. cbn beta iota. steptag. step (sound_ocfws K). apply post_ok. rewrite app_nil_r. now constructor.
Qed.
Lemma group_nonempty : forall E c v, rfc_group (f_compatibility_fixes E) (encoded E) c v -> c <> [].
Proof. intros E c v H K. destruct H. apply app_eq_nil in K as [_ K]. discriminate. Qed.
Lemma sound_address : forall E K i, post K (address E i) i (rfc_address (f_compatibility_fixes E) (encoded E)).
Proof.
  intros. unfold address. eapply post_attempt; [apply sound_mailbox| |].
  - intros c r m _ Hm. apply post_ok. rewrite app_nil_r. now constructor.
  - eapply post_attempt; [apply sound_group| |exact I]. intros c r g _ Hg. apply post_ok. rewrite app_nil_r. now constructor.
Qed.
Lemma sound_address_list : forall E K i, post K (address_list E i) i (rfc_address_list (f_compatibility_fixes E) (encoded E)).
Proof. intros. unfold address_list. apply sound_comma_list. intros. apply sound_address. Qed.

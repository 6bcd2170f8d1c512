(* C52: without the mime feature, the parser accepts exactly the texts of a grammar. *)
From Coq Require Import Lia ZifyBool ZifyNat ZifyN.
From Verif Require Import SafetyProofs Base Utf8 CharSets Combinators Whitespace QuotedString Common Time Address MimeFields Fields Message Entity Email Envs
  Rfc5322 Rfc2047 Post CodecSpec RfcFields SoundBase SoundTime SoundAddr TagNoCase SoundFields EmailSpec SoundMessage EmailProofs MessageFacts Steps Complete CompleteFields Forward
  ForwardText ForwardFields ForwardMessage HeaderFacts LocalSpec Local LocalFacts KeptFacts Writers WriteFacts WriteAddr RegularSpec RegularFacts NeatFacts TidyFacts TraceFacts RangeFacts LinedFacts LessFacts LineSpec LineFacts LessExact
  KeenFacts ExactSpec RangeWrite PercentProofs.
Local Open Scope N_scope.

(* ---- how a header parser stops ---- *)
Definition stops {A} (p : parser A) : Prop := forall j r v, p j = Ok (r, v) -> exists c, j = c ++ CRLF ++ r /\ (no_blank r -> tidy_line (c ++ CRLF)) /\ (fold_start (CRLF ++ r) -> blank_end c).
Lemma stops_header : forall A E e1 e2 m1 (p : parser A) m2 (name : string), nocase_pair (bs e1) (bs e2) = true -> bs e1 = bs name ++ [58] -> (forall j, neat (p j) j) -> (forall j, keen (p j) j) ->
  stops (header E e1 e2 m1 p m2).
Proof.
  intros A E e1 e2 m1 p m2 name H1 H2 HN HK j r v H. unfold header in H. pose proof (post_tag_no_case E never (bs e1) (bs e2) m1 j H1) as T.
  destruct (tag_no_case E (bs e1) (bs e2) m1 j) as [[j1 u]|e|k]; cbn [bind] in H; try discriminate. destruct T as (k & -> & Hk). specialize (HN j1). specialize (HK j1). destruct (p j1) as [[j2 v']|e|k']; cbn [bind] in H; try discriminate.
  destruct HN as (c & -> & Hc). destruct HK as (c' & X' & Hc'). apply app_inv_tail in X'. subst c'. destruct (tag_inv CRLF m2 j2) as [(t & -> & X)|[_ X]]; rewrite X in H; cbn [bind] in H; [|discriminate]. injection H as -> ->.
  exists (k ++ c). split; [now rewrite <- !app_assoc|]. split.
  - intros Hr. apply tidy_line_of. apply tidy_app; [apply Hc; exists r; auto|]. intros _. rewrite H2 in Hk. apply name_colon in Hk as (n & -> & _). apply ink_tidy, ink_one. unfold rfc_WSP. lia.
  - intros L. apply blank_app. auto.
Qed.
Lemma stops_pmap : forall A B (f : A -> B) (p : parser A), stops p -> stops (pmap f p).
Proof. intros A B f p H j r v X. unfold pmap in X. destruct (p j) as [[r' a]|e|k] eqn:Y; cbn [bind] in X; try discriminate. injection X as -> _. eapply H; eauto. Qed.
Lemma stops_match : forall A (ps : list (parser A)), Forall stops ps -> stops (match_parsers ps).
Proof. intros A ps H j r v X. apply match_ok in X as (p & Hp & X). rewrite Forall_forall in H. exact (H p Hp _ _ _ X). Qed.
Lemma stops_resent : forall A E m (p : parser A), stops p -> stops (resent E m p).
Proof.
  intros A E m p H j r v X. unfold resent in X. pose proof (post_tag_no_case E never (bs "Resent-") (bs "rESENT-") m j eq_refl) as T.
  destruct (tag_no_case E (bs "Resent-") (bs "rESENT-") m j) as [[j1 u]|e|k]; cbn [bind] in X; try discriminate. destruct T as (k & -> & Hk). destruct (H _ _ _ X) as (c & -> & H1 & H2).
  exists (k ++ c). split; [now rewrite <- app_assoc|]. split; [|intros L; apply blank_app; auto]. intros Hr. rewrite <- app_assoc. intros w W. rewrite app_assoc in W. apply app_inv_tail in W. subst w. apply tidy_app; [exact (H1 Hr c eq_refl)|]. intros ->.
  apply ink_tidy. destruct (exists_last (l := k)) as (a & x & ->); [intros ->; discriminate Hk|]. exists a, x. split; [reflexivity|]. unfold same_nocase in Hk. rewrite map_app in Hk. change (bs "Resent-") with (bs "Resent" ++ [45]) in Hk. rewrite map_app in Hk.
  apply app_inj_tail in Hk as [_ Hk]. cbn in Hk. unfold fold_case in Hk. unfold rfc_WSP. intros [->| ->]; vm_compute in Hk; discriminate.
Qed.
Lemma stops_return_path : forall E, stops (return_path E).
Proof. intros E. apply stops_header with (name := "Return-Path"%string); [reflexivity|reflexivity|apply neat_return_path_value|apply keen_return_path_value]. Qed.
Lemma stops_received : forall E, stops (received E).
Proof. intros E. apply stops_header with (name := "Received"%string); [reflexivity|reflexivity|apply neat_received_value|apply keen_received_value]. Qed.
Ltac sh nm L L' := apply stops_header with (name := nm); [reflexivity|reflexivity|intros; try apply firm_neat; apply L|intros; apply L'].
Lemma stops_resent_field : forall E, stops (resent_field E).
Proof.
  intros E. unfold resent_field. apply stops_match. repeat apply Forall_cons; [..|apply Forall_nil]; apply stops_pmap, stops_resent;
    [sh "Date"%string firm_date_time keen_date_time|sh "From"%string firm_mailbox_list keen_mailbox_list|sh "Sender"%string firm_mailbox keen_mailbox|sh "To"%string firm_address_list keen_address_list
    |sh "Cc"%string firm_address_list keen_address_list|apply stops_header with (name := "Bcc"%string); [reflexivity|reflexivity|apply neat_bcc_value|apply keen_bcc_value]|sh "Message-ID"%string firm_message_id keen_message_id].
Qed.
Definition structured_stops (p : parser field) : Prop := forall j r f, p j = Ok (r, f) -> structured_kind f -> exists c, j = c ++ CRLF ++ r /\ (no_blank r -> tidy_line (c ++ CRLF)) /\ (fold_start (CRLF ++ r) -> blank_end c).
Lemma structured_from : forall p, stops p -> structured_stops p.
Proof. intros p H j r f X _. eapply H; eauto. Qed.
Lemma structured_other : forall A (F : A -> field) (p : parser A), (forall a, ~ structured_kind (F a)) -> structured_stops (pmap F p).
Proof. intros A F p HF j r f H Hs. unfold pmap in H. destruct (p j) as [[r' v]|e|k]; cbn [bind] in H; try discriminate. injection H as _ <-. exfalso. exact (HF v Hs). Qed.
Lemma fields_stop_well : forall E, f_mime E = false -> Forall structured_stops (field_parsers E).
Proof.
  intros E M. unfold field_parsers.
  repeat (apply Forall_cfg; [intros F; try congruence; try (apply structured_other; intros x X; exact X)|]); try (apply structured_from, stops_pmap);
  [sh "Date"%string firm_date_time keen_date_time|sh "From"%string firm_mailbox_list keen_mailbox_list|sh "Sender"%string firm_mailbox keen_mailbox|sh "Reply-To"%string firm_address_list keen_address_list|sh "To"%string firm_address_list keen_address_list
    |sh "Cc"%string firm_address_list keen_address_list|apply stops_header with (name := "Bcc"%string); [reflexivity|reflexivity|apply neat_bcc_value|apply keen_bcc_value]|sh "Message-ID"%string firm_message_id keen_message_id
    |apply stops_header with (name := "In-Reply-To"%string); [reflexivity|reflexivity|apply neat_ids|apply keen_ids]|apply stops_header with (name := "References"%string); [reflexivity|reflexivity|apply neat_ids|apply keen_ids]
    |apply stops_header with (name := "Keywords"%string); [reflexivity|reflexivity|apply neat_keywords_value|intros; now apply keen_keywords_value]|].
  constructor; [|constructor]. apply structured_other. intros [n v] X. exact X.
Qed.

(* ---- a line whose value is unstructured text is taken as a whole ---- *)
Lemma line_lined : forall n t, chars1 rfc_ftext n -> lined t -> lined (n ++ [58] ++ t).
Proof. intros n t [_ Hn] Ht. apply lined_app; [now apply ftext_lined|]. constructor; [left; unfold rfc_VCHAR; lia|exact Ht]. Qed.
Lemma line_unblank : forall n t, chars1 rfc_ftext n -> unblank t -> unblank (n ++ [58] ++ t).
Proof.
  intros n t [_ Hn] Ht. change (unblanked ((n ++ [58] ++ t) ++ CRLF)). rewrite <- !app_assoc. apply unblanked_chars; [eapply Forall_impl; [|exact Hn]; intros c Hc; unfold rfc_ftext in Hc; lia|].
  apply unblanked_chars; [constructor; [lia|constructor]|]. exact Ht.
Qed.
Lemma line_taken : forall l i c r, lined l -> unblank l -> l ++ CRLF ++ i = c ++ CRLF ++ r -> (fold_start (CRLF ++ r) -> blank_end c) -> later i i r r -> r = i.
Proof.
  intros l i c r Hl Hu X HF L. apply later_self in L as [[z ->]| ->]; [exfalso|reflexivity].
  assert (Y : l ++ CRLF = c ++ CRLF ++ z ++ CRLF). { apply (app_inv_tail i). rewrite <- !app_assoc. exact X. }
  destruct (lined_end l c (z ++ CRLF) Hl Y) as [Z|(w & q & Z & Hw)]; [destruct z; discriminate|].
  assert (F : fold_start (CRLF ++ z ++ CRLF ++ i)). { exists w, (q ++ i). split; [|exact Hw]. f_equal. rewrite app_assoc, Z. reflexivity. }
  destruct (HF F) as (a & u & -> & Hb). rewrite <- !app_assoc in Y. exact (Hu _ _ _ Y Hb).
Qed.
Lemma stops_line : forall A (p : parser A) n t i r v, stops p -> hlocal i i p -> chars1 rfc_ftext n -> lined t -> unblank t -> p (n ++ [58] ++ t ++ CRLF ++ i) = Ok (r, v) -> r = i.
Proof.
  intros A p n t i r v HS HL Hn Ht Hu X. assert (N : near i i (n ++ [58] ++ t ++ CRLF ++ i) (n ++ [58] ++ t ++ CRLF ++ i)) by (exists (n ++ [58] ++ t); now rewrite <- !app_assoc).
  pose proof (lrel_self _ _ _ _ _ (HL _ _ N) X) as L. destruct (HS _ _ _ X) as (c & Y & _ & F). apply (line_taken (n ++ [58] ++ t) i c r); auto using line_lined, line_unblank. now rewrite <- !app_assoc.
Qed.

(* ---- one header ---- *)
Lemma unmarked_false : forall c, unmarked false c.
Proof. intros c X. discriminate. Qed.
Lemma structured_clear : forall E j r f, env_ok E -> f_mime E = false -> any_field E j = Ok (r, f) -> no_blank r -> structured_kind f -> exists c, j = c ++ r /\ clear_field E c f.
Proof.
  intros E j r f HE HM H Hr Hk. destruct (any_field_sound E j r f HE H) as (c & -> & Hc). exists c. split; [reflexivity|].
  destruct (recognised_tidy E _ _ _ H Hr Hk) as (c' & X & HT). apply app_inv_tail in X. subst c'.
  destruct (field_regular E c f HE Hc) as (f' & H1 & H2). { split; [rewrite HM; apply unmarked_false|]. destruct f; try exact HT; destruct Hk. }
  destruct (any_field_forward E c f' r (ok_hash E HE) H1 (no_blank_ends _ Hr)) as (f'' & H3 & H4). rewrite H in H3. injection H3 as <-.
  assert (f = f') as <-; [|exact H1]. pose proof (alike_kind _ _ H2 Hk) as Hk'. destruct H4; [reflexivity|destruct Hk'..].
Qed.
Lemma clear_same : forall E c f i, env_ok E -> f_mime E = false -> clear_field E c f -> ends is_wsp i -> any_field E (c ++ i) = Ok (i, f).
Proof.
  intros E c f i HE HM H Hi. destruct (any_field_forward E c f i (ok_hash E HE) H Hi) as (f' & X & S). rewrite X. destruct S; [reflexivity|exfalso; inversion H; congruence..].
Qed.
Lemma known_dec : forall n (l : list string), (forall name, In name l -> ~ same_nocase n (bs name)) \/ exists name, In name l /\ same_nocase n (bs name).
Proof.
  intros n l. induction l as [|a l [IH|(m & Hm & Hs)]]; [left; intros m []| |right; exists m; split; [now right|exact Hs]].
  destruct (bytes_eqb (map fold_case n) (map fold_case (bs a))) eqn:B; [right; exists a; split; [now left|now apply bytes_eqb_eq]|]. left. intros m [<-|Hm]; [|now apply IH]. intros X. apply bytes_eqb_eq in X. congruence.
Qed.
Lemma read_inv : forall E j r f, env_ok E -> f_mime E = false -> any_field E j = Ok (r, f) -> no_blank r -> exists c, j = c ++ r /\ field_read E c f.
Proof.
  intros E j r f HE HM H Hr. assert (D : structured_kind f \/ ~ structured_kind f) by (destruct f; cbn; auto). destruct D as [D|D].
  { destruct (structured_clear E j r f HE HM H Hr D) as (c & -> & Hc). exists c. split; [reflexivity|now constructor]. }
  destruct (any_field_sound E j r f HE H) as (c & -> & Hc). exists c. split; [reflexivity|]. pose proof (no_blank_ends _ Hr) as Hr'.
  destruct Hc as [| | | | | | | | | |c s F Hc|c s F Hc| |c x y F _|c t s p F _|c e F _|c i F _|c s F _|c d F _|c1 p c2 rr c3 l _ _ _ _ _|c n v Hc]; try (exfalso; now apply D); try congruence.
  - constructor. apply clear_subject; [exact F|]. apply header_text_regular; [exact Hc|rewrite HM; apply unmarked_false].
  - constructor. apply clear_comments; [exact F|]. apply header_text_regular; [exact Hc|rewrite HM; apply unmarked_false].
  - exfalso. pose proof (any_field_not_trace E _ _ _ H). discriminate.
  - assert (HU : f_unrecognized_headers E = false). { destruct (f_unrecognized_headers E) eqn:U; [|reflexivity]. pose proof (ok_unrecognized E HE U). congruence. }
    inversion Hc as [n' t v' Hn Ht]; subst n' v' c. pose proof Ht as Ht'. rewrite HU in Ht'. destruct (known_dec n (known_names E)) as [K|(name & K1 & K2)].
    + constructor. apply clear_unknown_field. constructor; auto. rewrite HU. exact Ht'.
    + apply (read_unstructured E n t v Hn Ht'). intros f' Hf. pose proof (clear_same E _ _ r HE HM Hf Hr') as X. change (bs ":") with [58] in X. rewrite H in X. injection X as <-.
      inversion Hf as [| | | | | | | | | | | | | | | | | | |c' n' v' Hu]; subst. inversion Hu as [n0 c0 v0 Hn0 HK0 Ht0 EQ]; subst. exact (HK0 name K1 K2).
Qed.
Lemma read_forward : forall E c f i, env_ok E -> f_mime E = false -> field_read E c f -> ends is_wsp i -> any_field E (c ++ i) = Ok (i, f).
Proof.
  intros E c f i HE HM H Hi. destruct H as [c f H|n t v Hn Ht HN]; [now apply clear_same|].
  assert (HU : f_unrecognized_headers E = false). { destruct (f_unrecognized_headers E) eqn:U; [|reflexivity]. pose proof (ok_unrecognized E HE U). congruence. }
  assert (Ht' : clear_text_value (f_unrecognized_headers E) (textcode E) t v) by (rewrite HU; exact Ht).
  change (bs ":") with [58] in *. rewrite <- !app_assoc. pose proof (any_field_split E (n ++ [58] ++ t ++ CRLF ++ i)) as S.
  destruct (match_parsers (structured_parsers E) (n ++ [58] ++ t ++ CRLF ++ i)) as [[r g]|e|k] eqn:M.
  - exfalso. pose proof (structured_ok _ _ _ _ M) as Hg. destruct (any_field_sound E _ r g HE S) as (x & X & Hx). assert (D : structured_kind g \/ ~ structured_kind g) by (destruct g; cbn; auto). destruct D as [D|D].
    + pose proof S as S'. unfold any_field in S'. apply match_ok in S' as (p & Hp & S'). pose proof (fields_stop_well E HM) as G. rewrite Forall_forall in G. destruct (G p Hp _ _ _ S' D) as (c & Y & _ & F).
      assert (N : near i i (n ++ [58] ++ t ++ CRLF ++ i) (n ++ [58] ++ t ++ CRLF ++ i)) by (exists (n ++ [58] ++ t); now rewrite <- !app_assoc).
      pose proof (lrel_self _ _ _ _ _ (hlocal_any_field i i Hi Hi E _ _ N) S) as L.
      assert (r = i) as ->. { apply (line_taken (n ++ [58] ++ t) i c r); auto; [apply line_lined; auto; eapply lined_unstructured; eauto|apply line_unblank; auto; apply (text_unblank false (textcode E) t v Ht)|now rewrite <- !app_assoc]. }
      destruct (structured_clear E _ i g HE HM S (ends_no_blank _ Hi) D) as (c' & Z & Hc). apply (HN g). replace (n ++ [58] ++ t ++ CRLF) with c'; [exact Hc|]. apply (app_inv_tail i). now rewrite <- !app_assoc.
    + assert (T : forall name c s, f_mime E = false -> rfc_header name (rfc_text_value (f_mime E) (textcode E)) x s -> c = x ++ r -> n ++ [58] ++ t ++ CRLF ++ i = c -> ~ In 58 (bs name) -> same_nocase n (bs name)).
      { intros name c s _ Hh -> Hc Hcol. destruct Hh as [m u s' Hm Hu]. rewrite <- !app_assoc in Hc. cbn [app] in Hc. apply colon_unique in Hc as [-> _]; [exact Hm|now apply ftext_no_colon|eapply fold_nocolon; eauto]. }
      destruct Hx as [| | | | | | | | | |c s F Hc|c s F Hc| |c x0 y F _|c t0 s p F _|c e F _|c i0 F _|c s F _|c d F _|c1 p c2 rr c3 l _ _ _ _ _|c n0 v0 Hc]; try (now apply D); try congruence.
      * apply (HN (FSubject v)). apply clear_subject; [exact F|]. rewrite HM. constructor; [|exact Ht]. apply (T "Subject"%string _ s HM Hc eq_refl X). no_colon.
      * apply (HN (FComments v)). apply clear_comments; [exact F|]. rewrite HM. constructor; [|exact Ht]. apply (T "Comments"%string _ s HM Hc eq_refl X). no_colon.
      * pose proof (any_field_not_trace E _ _ _ S). discriminate.
  - rewrite S. cbn [match_parsers]. unfold pmap. rewrite (unknown_forward E n t v i Hn Ht' Hi). reflexivity.
  - exfalso. exact (any_field_no_crash E _ k HE (or_intror HM) S).
Qed.

(* ---- trace blocks ---- *)
Lemma word_of_local : forall E i x e, local_part E i = Ok x -> word i <> Err e.
Proof.
  intros E i x e H W. unfold local_part, word in *. cbn [match_parsers] in *. unfold dot_atom, atom in *.
  destruct (skip_cfws i) as [i1|e1|k1]; cbn [bind attempt] in *; [|destruct (quoted_string i) as [[a b]|e2|k2]; cbn [attempt] in *; discriminate|discriminate].
  unfold dot_atom_text in H. destruct (take_while1 is_atext i1) as [[i2 a]|e2|k2]; cbn [bind attempt map_err] in *; [|destruct (quoted_string i) as [[a b]|e3|k3]; cbn [attempt] in *; discriminate|discriminate].
  pose proof (neat_ocfws i2) as N. unfold skip_cfws in W. destruct (cfws i2) as [[i3 s]|e3|k3]; cbn in W; discriminate.
Qed.
Lemma token_bracketed : forall E i, post never (received_token_parser E i) i (bracketed_token (f_compatibility_fixes E)).
Proof.
  intros. unfold received_token_parser. pose proof (sound_word never i) as W. pose proof (sound_domain E never i) as D.
  destruct (word i) as [[rw w]|e|k] eqn:Hw; cbn [attempt post] in *; auto.
  - destruct W as (cw & -> & W). destruct (domain E (cw ++ rw)) as [[rd d]|e|k]; cbn [attempt post] in *; auto.
    + destruct D as (cd & Hd & D). destruct (length w <? length d)%nat; cbn.
      * exists cd. split; auto. now apply bracketed_domain.
      * exists cw. split; auto. now constructor.
    + exists cw. split; auto. now constructor.
  - eapply post_attempt; [apply sound_angle_addr| |].
    { intros c r a _ H. apply post_ok. rewrite app_nil_r. now apply bracketed_angle. }
    destruct (addr_spec E i) as [[r a]|e'|k'] eqn:A; cbn [attempt].
    + exfalso. unfold addr_spec in A. destruct (local_part E i) as [x|e2|k2] eqn:L; cbn [bind] in A; try discriminate. exact (word_of_local E i x e L Hw).
    + eapply post_attempt; [apply sound_domain| |exact I]. intros c r a _ H. apply post_ok. rewrite app_nil_r. now apply bracketed_domain.
    + pose proof (sound_addr_spec E never i) as S. rewrite A in S. exact S.
Qed.
Lemma received_bracketed : forall E i, post never (received_value E i) i (bracketed_received (f_compatibility_fixes E)).
Proof.
  intros. unfold received_value. eapply post_bind.
  { apply (post_many _ never (received_token_parser E) (bracketed_token (f_compatibility_fixes E))); [|intros; apply token_bracketed].
    intros c a [c' w H|c' x H|c' d H]; [eapply word_nonempty|eapply angle_addr_nonempty|eapply domain_nonempty]; eauto. }
  intros c r l _ Hl. cbn beta iota. eapply post_bind; [apply post_tag|]. intros c' r' u _ ->. cbn beta iota. eapply post_bind; [apply (sound_date_value E never)|]. intros c2 r2 d _ Hd. cbn beta iota. apply post_ok. rewrite app_nil_r.
  now constructor.
Qed.
Lemma received_inv : forall E j r v, received E j = Ok (r, v) -> no_blank r -> exists c, j = c ++ r /\ rfc_header "Received" (tidily (clear_received (f_compatibility_fixes E))) c v.
Proof.
  intros E j r v H Hr. destruct (stops_received E _ _ _ H) as (c & -> & T & _). exists (c ++ CRLF). split; [now rewrite <- app_assoc|]. specialize (T Hr).
  assert (S : post never (received E (c ++ CRLF ++ r)) (c ++ CRLF ++ r) (rfc_header "Received" (bracketed_received (f_compatibility_fixes E)))) by (apply sound_header; [reflexivity|reflexivity|intros; apply received_bracketed]).
  rewrite H in S. destruct S as (c' & X & S). rewrite app_assoc in X. apply app_inv_tail in X. subst c'.
  destruct (received_header_regular false _ _ _ (conj S T) (unmarked_false _)) as (v' & S' & _).
  pose proof (received_header_forward E _ _ r S' (no_blank_ends _ Hr)) as X. rewrite <- app_assoc in X. rewrite H in X. injection X as <-. exact S'.
Qed.
Lemma return_inv : forall E j r v, return_path E j = Ok (r, v) -> no_blank r -> exists c, j = c ++ r /\ rfc_header "Return-Path" (tidily (rfc_path (f_compatibility_fixes E))) c v.
Proof.
  intros E j r v H Hr. destruct (stops_return_path E _ _ _ H) as (c & -> & T & _). exists (c ++ CRLF). split; [now rewrite <- app_assoc|]. specialize (T Hr).
  assert (S : post never (return_path E (c ++ CRLF ++ r)) (c ++ CRLF ++ r) (rfc_header "Return-Path" (rfc_path (f_compatibility_fixes E)))) by (apply sound_header; [reflexivity|reflexivity|intros; apply sound_path]).
  rewrite H in S. destruct S as (c' & X & S). rewrite app_assoc in X. apply app_inv_tail in X. subst c'. now apply header_regular_same.
Qed.
Lemma resent_inv : forall E j r v, f_mime E = false -> resent_field E j = Ok (r, v) -> no_blank r -> exists c, j = c ++ r /\ clear_resent (f_mime E) (f_compatibility_fixes E) (encoded E) c v.
Proof.
  intros E j r v HM H Hr. destruct (stops_resent_field E _ _ _ H) as (c & -> & T & _). exists (c ++ CRLF). split; [now rewrite <- app_assoc|]. specialize (T Hr).
  pose proof (sound_resent_field E never (c ++ CRLF ++ r)) as S. rewrite H in S. destruct S as (c' & X & S). rewrite app_assoc in X. apply app_inv_tail in X. subst c'.
  destruct (resent_regular (f_mime E) _ _ (encoded_marked E) _ _ (conj S T)) as (v' & S' & _); [rewrite HM; apply unmarked_false|].
  pose proof (resent_field_forward E _ _ r S' (no_blank_ends _ Hr)) as X. rewrite <- app_assoc in X. rewrite H in X. injection X as <-. exact S'.
Qed.
Lemma starts_no_blank : forall i, starts_header i -> no_blank i.
Proof. intros i H. now apply ends_no_blank, starts_header_wsp. Qed.
Lemma received_on : forall E j r v, received E j = Ok (r, v) -> no_blank j.
Proof.
  intros E j r v H. assert (S : post never (received E j) j (rfc_header "Received" (rfc_received (f_compatibility_fixes E)))) by (apply sound_header; [reflexivity|reflexivity|intros; apply sound_received_value]).
  rewrite H in S. destruct S as (c & -> & S). apply starts_no_blank. hstarts S.
Qed.
Lemma resent_on : forall E j r v, resent_field E j = Ok (r, v) -> no_blank j.
Proof.
  intros E j r v H. pose proof (sound_resent_field E never j) as S. rewrite H in S. destruct S as (c & -> & S). apply starts_no_blank. destruct S as [c v S|c v S|c v S|c v S|c v S|c v S|c v S]; hstarts S.
Qed.
Lemma steps_texts_of : forall A (p : parser A) (P : bytes -> A -> Prop), (forall j r a, p j = Ok (r, a) -> no_blank r -> exists c, j = c ++ r /\ P c a) -> (forall j r a, p j = Ok (r, a) -> no_blank j) ->
  forall j l r, steps p j l r -> no_blank r -> exists c, j = c ++ r /\ many_of P c l /\ exists e, p r = Err e.
Proof.
  intros A p P HP HN j l r H Hr. induction H as [i e H|i r a l r' H _ Hs IH]; [exists []; split; [reflexivity|]; split; [constructor|eauto]|].
  assert (N : no_blank r). { inversion Hs; subst; [exact Hr|]. eapply HN; eauto. }
  destruct (IH Hr) as (c & -> & Hc & He).
  destruct (HP _ _ _ H N) as (d & -> & Hd). exists (d ++ c). split; [now rewrite app_assoc|]. split; [now constructor|exact He].
Qed.
Lemma block_inv : forall E j r p rc l, f_mime E = false -> trace_block E j = Ok (r, FTrace p rc l) -> no_blank r ->
  exists c, j = c ++ r /\ clear_block E c (FTrace p rc l) /\ (exists e, resent_field E r = Err e) /\ (l = [] -> exists e, received E r = Err e) /\ (p = None -> exists x, received E j = Ok x).
Proof.
  intros E j r p rc l HM H Hr. unfold trace_block, trace in H. destruct (optional (return_path E) j) as [[j1 o]|e|k] eqn:O; cbn [bind] in H; try discriminate.
  destruct (many1 (received E) j1) as [[j2 rs]|e|k] eqn:R; cbn [bind] in H; try discriminate. destruct (many (resent_field E) j2) as [[j3 ls]|e|k] eqn:L; cbn [bind] in H; try discriminate. injection H as -> -> -> ->.
  apply many_inv in L; [|exact (progress_resent E)].
  assert (N2 : no_blank j2). { inversion L; subst; [exact Hr|]. eapply resent_on; eauto. }
  destruct (steps_texts_of _ _ _ (fun j r a => resent_inv E j r a HM) (resent_on E) _ _ _ L Hr) as (c3 & X3 & Hc3 & He3).
  unfold many1 in R. destruct (received E j1) as [[j1' v]|e|k] eqn:R1; cbn [bind] in R; try discriminate. destruct (many (received E) j1') as [[j2' vs]|e|k] eqn:R2; cbn [bind] in R; try discriminate. injection R as -> <-.
  apply many_inv in R2; [|exact (progress_received E)].
  assert (N1' : no_blank j1'). { inversion R2; subst; [exact N2|]. eapply received_on; eauto. }
  destruct (steps_texts_of _ _ _ (received_inv E) (received_on E) _ _ _ R2 N2) as (c2 & X2 & Hc2 & He2). destruct (received_inv E _ _ _ R1 N1') as (c1 & X1 & Hc1).
  assert (C : exists c0, j = c0 ++ j1 /\ clear_return (f_compatibility_fixes E) c0 p /\ (p = None -> j1 = j)).
  { unfold optional in O. destruct (return_path E j) as [[j0 q]|e|k] eqn:Q; cbn [attempt] in O; try discriminate; injection O as <- <-.
    - destruct (return_inv E _ _ _ Q (received_on _ _ _ _ R1)) as (c0 & -> & Hc0). exists c0. split; [reflexivity|]. split; [now constructor|discriminate].
    - exists []. split; [reflexivity|]. split; [constructor|reflexivity]. }
  destruct C as (c0 & X0 & Hc0 & E0). exists (c0 ++ (c1 ++ c2) ++ c3). split; [rewrite X0, X1, X2, X3; now rewrite <- !app_assoc|]. split; [constructor; auto; [discriminate|now constructor]|]. split; [exact He3|]. split.
  - intros ->. inversion Hc3; subst. cbn [app] in He2. exact He2.
  - intros P. exists (j1', v). rewrite <- (E0 P). exact R1.
Qed.
Lemma block_on : forall E j r f, trace_block E j = Ok (r, f) -> no_blank j.
Proof.
  intros E j r f H. unfold trace_block, trace, optional in H. destruct (return_path E j) as [[j0 q]|e|k] eqn:Q; cbn [attempt bind] in H; try discriminate.
  - assert (S : post never (return_path E j) j (rfc_header "Return-Path" (rfc_path (f_compatibility_fixes E)))) by (apply sound_header; [reflexivity|reflexivity|intros; apply sound_path]).
    rewrite Q in S. destruct S as (c & -> & S). apply starts_no_blank. hstarts S.
  - unfold many1 in H. destruct (received E j) as [[j1 v]|e'|k] eqn:R; cbn [bind] in H; try discriminate. eapply received_on; eauto.
Qed.
Lemma blocks_inv : forall E j t r, f_mime E = false -> steps (trace_block E) j t r -> no_blank r ->
  exists c, j = c ++ r /\ clear_blocks E c t /\ (exists e, trace_block E r = Err e) /\ (t <> [] -> exists e, resent_field E r = Err e).
Proof.
  intros E j t r HM H Hr. induction H as [i e H|i r a l r' H _ Hs IH]; [exists []; split; [reflexivity|]; split; [constructor|]; split; [eauto|congruence]|].
  assert (N : no_blank r). { inversion Hs; subst; [exact Hr|]. eapply block_on; eauto. }
  destruct (IH Hr) as (c & X & Hc & He & Hz). destruct (block_trace E _ _ _ H) as (p & rc & ls & ->). destruct (block_inv E _ _ _ _ _ HM H N) as (d & -> & Hd & Hre & Hrc & _).
  exists (d ++ c). split; [rewrite X at 1; now rewrite app_assoc|]. split; [|split; [exact He|]].
  - constructor; auto. destruct l as [|g l]; [exact I|]. cbn. destruct g as [| | | | | | | | | | | | | | | | | | |p2 rc2 ls2|]; try exact I. destruct ls as [|z ls]; [right|left; discriminate]. intros ->. destruct (Hrc eq_refl) as [e1 E1].
    inversion Hs as [|i0 r0 a0 l0 r1 H0 _ Hs0]; subst. assert (N0 : no_blank r0). { inversion Hs0; subst; [exact Hr|]. eapply block_on; eauto. }
    destruct (block_inv E _ _ _ _ _ HM H0 N0) as (_ & _ & _ & _ & _ & G). destruct (G eq_refl) as [x G']. congruence.
  - intros _. destruct l as [|g l]; [|apply Hz; discriminate]. clear X. inversion Hs; subst. exact Hre.
Qed.
Lemma many_not_err : forall A (p : parser A) i e, many p i <> Err e.
Proof.
  intros A p i e. unfold many. generalize (S (length i)) as n. intros n. revert i. induction n as [|n IH]; intros i; cbn [many_fuel]; [discriminate|]. destruct (p i) as [[r a]|e'|k]; cbn [attempt]; try discriminate.
  specialize (IH r). destruct (many_fuel n p r) as [[r' l]|e'|k]; cbn [bind]; congruence.
Qed.
Lemma begins_block : forall E i e, begins (block_start E) i -> trace_block E i <> Err e.
Proof.
  intros E i e (c & a & r & H & -> & Hr) X. destruct H as [c1 p c2 v H1 H2]. apply new_line_ends in Hr. rewrite <- app_assoc in X. unfold trace_block, trace in X.
  pose proof (received_header_forward E c2 v r H2 Hr) as R. assert (O : optional (return_path E) (c1 ++ c2 ++ r) = Ok (c2 ++ r, p)).
  { destruct H1 as [|c1 q H1].
    - assert (N : without "Return-Path" (c2 ++ r)) by other H2. cbn [app]. unfold optional. destruct (return_path_none E _ N) as [e' ->]. reflexivity.
    - unfold optional. rewrite (return_path_forward E c1 q); [reflexivity|exact H1|]. apply starts_header_wsp. hstarts H2. }
  rewrite O in X. cbn [bind] in X. unfold many1 in X. rewrite R in X. cbn [bind] in X. pose proof (many_not_err _ (received E) r) as M. destruct (many (received E) r) as [[j l]|e'|k]; cbn [bind] in X; [|now apply (M e')|discriminate].
  pose proof (many_not_err _ (resent_field E) j) as M'. destruct (many (resent_field E) j) as [[j' l']|e'|k]; cbn [bind] in X; [discriminate|now apply (M' e')|discriminate].
Qed.
Lemma field_read_starts : forall E c f i, field_read E c f -> starts_header (c ++ i).
Proof.
  intros E c f i [c' f' H|n t v Hn Ht _]; [eapply clear_field_starts; eauto|]. exists n, (t ++ CRLF ++ i). split; [|exact Hn]. now rewrite <- !app_assoc.
Qed.
Lemma reads_start : forall E c l c3, many_of (field_read E) c l -> bare c3 -> ends is_wsp (c ++ c3).
Proof. intros E c l c3 H Hb. eapply headers_start; [|now apply bare_wsp|exact H]. intros. eapply field_read_starts; eauto. Qed.
Lemma taken : forall E A (p : parser A) c l c3 r v, f_trace E = true -> stops p -> (forall i, ends is_wsp i -> hlocal i i p) -> (forall i, no_trace i -> exists e, p i = Err e) -> many_of (field_read E) c l -> bare c3 ->
  p (c ++ c3) = Ok (r, v) -> exists c' l', r = c' ++ c3 /\ many_of (field_read E) c' l'.
Proof.
  intros E A p c l c3 r v HT HS HL HN H Hb X. destruct H as [|c f cs l H Hs]. { destruct (HN c3 (bare_no_trace _ Hb)) as [e Y]. cbn [app] in X. congruence. }
  exists cs, l. split; [|exact Hs]. rewrite <- app_assoc in X. pose proof (reads_start E cs l c3 Hs Hb) as W. destruct H as [c f H|n t u Hn Ht _].
  - destruct (HN (c ++ cs ++ c3)) as [e Y]; [eapply clear_field_no_trace; eauto|]. congruence.
  - rewrite <- !app_assoc in X. eapply (stops_line A p n t); [exact HS|now apply HL|exact Hn|eapply lined_unstructured; eauto|apply (text_unblank false (textcode E) t u Ht)|exact X].
Qed.
Lemma received_no : forall E i, no_trace i -> exists e, received E i = Err e.
Proof. intros E i H. apply received_none. apply H. in_list. Qed.
Lemma return_no : forall E i, no_trace i -> exists e, return_path E i = Err e.
Proof. intros E i H. apply return_path_none. apply H. in_list. Qed.
Lemma resent_no : forall E i, no_trace i -> exists e, resent_field E i = Err e.
Proof. intros E i H. apply resent_none. intros name Hn. apply H. cbn. tauto. Qed.
Lemma no_start_received : forall E c l c3, f_trace E = true -> many_of (field_read E) c l -> bare c3 -> ~ begins (block_start E) (c ++ c3) -> exists e, received E (c ++ c3) = Err e.
Proof.
  intros E c l c3 HT H Hb HN. destruct (received E (c ++ c3)) as [[r v]|e|k] eqn:R; [|eauto|].
  - exfalso. destruct (taken E _ (received E) c l c3 r v HT (stops_received E)) as (c' & l' & -> & H'); auto; [intros; now apply hlocal_received|apply received_no|].
    pose proof (ends_no_blank _ (reads_start E c' l' c3 H' Hb)) as W. destruct (received_inv E _ _ _ R W) as (d & X & Hd). apply HN. exists d, (None, v), (c' ++ c3). split; [apply (block_start_intro E [] None d v); [constructor|exact Hd]|]. split; [exact X|exact W].
  - exfalso. assert (S : post never (received E (c ++ c3)) (c ++ c3) (rfc_header "Received" (rfc_received (f_compatibility_fixes E)))) by (apply sound_header; [reflexivity|reflexivity|intros; apply sound_received_value]). rewrite R in S. exact S.
Qed.
Lemma no_start_block : forall E c l c3, f_trace E = true -> many_of (field_read E) c l -> bare c3 -> ~ begins (block_start E) (c ++ c3) -> exists e, trace_block E (c ++ c3) = Err e.
Proof.
  intros E c l c3 HT H Hb HN. unfold trace_block, trace, optional. destruct (return_path E (c ++ c3)) as [[r q]|e|k] eqn:Q; cbn [attempt bind].
  - destruct (taken E _ (return_path E) c l c3 r q HT (stops_return_path E)) as (c' & l' & -> & H'); auto; [intros; now apply hlocal_return_path|apply return_no|].
    pose proof (ends_no_blank _ (reads_start E c' l' c3 H' Hb)) as W. destruct (return_inv E _ _ _ Q W) as (d & X & Hd). unfold many1. destruct (received E (c' ++ c3)) as [[r v]|e|k] eqn:R; cbn [bind]; [exfalso|eauto|exfalso].
    + destruct (taken E _ (received E) c' l' c3 r v HT (stops_received E)) as (c2 & l2 & -> & H2); auto; [intros; now apply hlocal_received|apply received_no|].
      pose proof (ends_no_blank _ (reads_start E c2 l2 c3 H2 Hb)) as W2. destruct (received_inv E _ _ _ R W2) as (d2 & X2 & Hd2). apply HN. exists (d ++ d2), (Some q, v), (c2 ++ c3). split; [constructor; [now constructor|exact Hd2]|].
      split; [rewrite X, X2; now rewrite app_assoc|exact W2].
    + assert (S : post never (received E (c' ++ c3)) (c' ++ c3) (rfc_header "Received" (rfc_received (f_compatibility_fixes E)))) by (apply sound_header; [reflexivity|reflexivity|intros; apply sound_received_value]). rewrite R in S. exact S.
  - destruct (no_start_received E c l c3 HT H Hb HN) as [e' R]. unfold many1. rewrite R. cbn [bind]. eauto.
  - exfalso. assert (S : post never (return_path E (c ++ c3)) (c ++ c3) (rfc_header "Return-Path" (rfc_path (f_compatibility_fixes E)))) by (apply sound_header; [reflexivity|reflexivity|intros; apply sound_path]). rewrite Q in S. exact S.
Qed.
Lemma no_start_resent : forall E c l c3, f_trace E = true -> f_mime E = false -> many_of (field_read E) c l -> bare c3 ->
  ~ begins (clear_resent (f_mime E) (f_compatibility_fixes E) (encoded E)) (c ++ c3) -> exists e, resent_field E (c ++ c3) = Err e.
Proof.
  intros E c l c3 HT HM H Hb HN. destruct (resent_field E (c ++ c3)) as [[r v]|e|k] eqn:R; [|eauto|].
  - exfalso. destruct (taken E _ (resent_field E) c l c3 r v HT (stops_resent_field E)) as (c' & l' & -> & H'); auto; [intros; now apply hlocal_resent_field|apply resent_no|].
    pose proof (ends_no_blank _ (reads_start E c' l' c3 H' Hb)) as W. destruct (resent_inv E _ _ _ HM R W) as (d & X & Hd). apply HN. exists d, v, (c' ++ c3). split; [exact Hd|]. split; [exact X|exact W].
  - exfalso. pose proof (sound_resent_field E never (c ++ c3)) as S. rewrite R in S. exact S.
Qed.

(* ---- messages and emails ---- *)
Lemma rest_bare : forall c b, rest_text c b -> bare c.
Proof. intros c b [|x]; [now left|right; eauto]. Qed.
Lemma any_field_on : forall E j r f, env_ok E -> any_field E j = Ok (r, f) -> no_blank j.
Proof. intros E j r f HE H. destruct (any_field_sound E j r f HE H) as (c & -> & Hc). apply ends_no_blank. eapply field_starts; eauto. Qed.
Theorem message_exact : forall E d fs b, env_ok E -> f_mime E = false -> parse_message E d = Ok (fs, b) <-> message_read E d fs b.
Proof.
  intros E d fs b HE HM. rewrite message_ok. split.
  - intros (c3 & H & Hb & Hr & HB). specialize (HB HM). rewrite fields_parts in H. destruct (trace_part E d) as [[i t]|e|k] eqn:T; cbn [bind] in H; try discriminate.
    destruct (many (any_field E) i) as [[r l]|e|k] eqn:M; cbn [bind] in H; try discriminate. injection H as -> <-. apply many_inv in M; [|exact (progress_any_field E HE)].
    assert (N3 : no_blank c3) by (now apply ends_no_blank, bare_wsp).
    destruct (steps_texts_of _ _ _ (fun j r a => read_inv E j r a HE HM) (fun j r a => any_field_on E j r a HE) _ _ _ M N3) as (c2 & -> & H2 & _).
    pose proof (ends_no_blank _ (reads_start E c2 l c3 H2 Hb)) as W. unfold trace_part in T. destruct (f_trace E) eqn:F.
    + apply many_inv in T; [|exact (progress_block E F)]. destruct (blocks_inv E _ _ _ HM T W) as (c1 & -> & H1 & He & Hz). apply message_read_intro; auto; [congruence| |].
      * intros _ B. destruct He as [e He]. exact (begins_block E _ e B He).
      * intros Ht (c & a & r & Ha & X & Hn). destruct (Hz Ht) as [e He2]. rewrite X in He2. rewrite (resent_field_forward E c a r Ha (new_line_ends _ Hn)) in He2. discriminate.
    + injection T as -> <-. apply (message_read_intro E [] [] c2 l c3 b); auto; [apply clear_blocks_nil|congruence].
  - intros H. destruct H as [c1 t c2 l c3 b H1 Ht HS HR H2 H3 HB]. pose proof (rest_bare _ _ H3) as Hb. exists c3. split; [|split; [exact Hb|split; [exact H3|intros _; exact HB]]].
    pose proof (reads_start E c2 l c3 H2 Hb) as W.
    destruct (headers_steps _ _ (field_read E) (any_field E) eq c3) with (c := c2) (l := l) as (l' & S & R);
      [intros c0 a j Ha Hj; exists a; split; [now apply read_forward|reflexivity]|intros; eapply field_read_starts; eauto|now apply bare_wsp|now apply any_field_bare|exact H2|].
    apply forall2_eq in R. subst l'. rewrite fields_parts. assert (T : trace_part E (c1 ++ c2 ++ c3) = Ok (c2 ++ c3, t)).
    { unfold trace_part. destruct (f_trace E) eqn:F.
      - apply many_steps. specialize (HS eq_refl). pose proof (no_start_block E c2 l c3 F H2 Hb HS) as B. destruct t as [|f t].
        + inversion H1; subst. cbn [app]. destruct B as [e B]. eapply steps_stop; exact B.
        + apply blocks_until; auto; [apply (no_start_resent E c2 l c3 F HM H2 Hb); apply HR; discriminate|now apply (no_start_received E c2 l c3)].
      - rewrite (Ht eq_refl) in *. inversion H1; subst. reflexivity. }
    rewrite T. cbn [bind]. rewrite (many_steps _ _ _ _ _ S). reflexivity.
Qed.
Theorem parse_exact : forall E d e, env_ok E -> f_mime E = false -> parse E d = Ok e <-> exists fs b, message_read E d fs b /\ email_of E fs b e.
Proof.
  intros E d e HE HM. split.
  - intros H. destruct (parse_ok_message E d e H) as (fs & b & M). exists fs, b. split; [now apply message_exact|]. now apply (parse_iff_email E d fs b e HE M).
  - intros (fs & b & M & H). apply (message_exact E d fs b HE HM) in M. now apply (parse_iff_email E d fs b e HE M).
Qed.
Theorem message_read_once : forall E d fs b fs' b', env_ok E -> f_mime E = false -> message_read E d fs b -> message_read E d fs' b' -> fs' = fs /\ b' = b.
Proof.
  intros E d fs b fs' b' HE HM H H'. apply (message_exact E d fs b HE HM) in H. apply (message_exact E d fs' b' HE HM) in H'. rewrite H in H'. now inversion H'.
Qed.
Theorem field_exact : forall E c f i, env_ok E -> f_mime E = false -> new_line i -> any_field E (c ++ i) = Ok (i, f) <-> field_read E c f.
Proof.
  intros E c f i HE HM Hi. apply new_line_ends in Hi. split.
  - intros H. destruct (read_inv E _ _ _ HE HM H (ends_no_blank _ Hi)) as (c' & X & Hc). apply app_inv_tail in X. now subst c'.
  - intros H. now apply read_forward.
Qed.
Theorem received_exact : forall E c v i, new_line i -> received E (c ++ i) = Ok (i, v) <-> rfc_header "Received" (tidily (clear_received (f_compatibility_fixes E))) c v.
Proof.
  intros E c v i Hi. apply new_line_ends in Hi. split.
  - intros H. destruct (received_inv E _ _ _ H (ends_no_blank _ Hi)) as (c' & X & Hc). apply app_inv_tail in X. now subst c'.
  - intros H. now apply received_header_forward.
Qed.
Theorem unread_rejected : forall E d, env_ok E -> f_mime E = false -> (exists err, parse E d = Err err) <-> ~ exists fs b e, message_read E d fs b /\ email_of E fs b e.
Proof.
  intros E d HE HM. split.
  - intros [err H] (fs & b & e & M). assert (X : parse E d = Ok e) by (apply parse_exact; eauto). congruence.
  - intros H. destruct (parse_total E d HE (or_intror HM)) as [[e X]|X]; [|exact X]. exfalso. apply H. apply (parse_exact E d e HE HM) in X as (fs & b & X). eauto.
Qed.

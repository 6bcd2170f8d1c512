(* Soundness, part 4: headers, MIME headers, trace blocks, messages. *)
From Coq Require Import ZArith Lia ZifyBool ZifyNat ZifyN Permutation.
From Verif Require Import Base Utf8 CharSets Combinators Whitespace QuotedString EncodedWord Percent Common Time Address
  MimeFields Fields Message Envs Rfc5322 Rfc2047 CodecSpec RfcFields Post CodecArith Base64Proofs QPProofs PercentProofs
  SoundBase SoundTime SoundAddr TagNoCase ParamProofs.
Local Open Scope N_scope.

(* ---- values that are ASCII ---- *)
Lemma chars_ascii : forall (P : byte -> Prop) l, (forall c, P c -> c < 128) -> chars P l -> ascii l.
Proof. intros P l H Hl. eapply Forall_impl; [|exact Hl]. exact H. Qed.
Lemma oFWS_ascii : forall c v, rfc_oFWS c v -> ascii v.
Proof.
  intros c v [|c' v' [w [_ H]|w1 w2 H1 [_ H2]]]; [constructor| |apply Forall_app; split];
    (eapply chars_ascii; [|eassumption]; chars_lia).
Qed.
Lemma qbody_ascii : forall b v, rfc_qbody b v -> ascii v.
Proof.
  intros b v H. induction H as [w v H|w v t c b x H Ht Hb IH]; [eapply oFWS_ascii; eauto|].
  apply Forall_app. split; [eapply oFWS_ascii; eauto|]. constructor; auto.
  inversion Ht; subst; [|match goal with H : rfc_quoted_pair _ _ |- _ => inversion H; subst end]; unfold ascii_byte; chars_lia.
Qed.
Lemma quoted_string_ascii : forall c v, rfc_quoted_string c v -> ascii v.
Proof. intros c v H. inversion H; subst. eapply qbody_ascii; eauto. Qed.

(* ---- headers ---- *)
Lemma fold_case_colon : forall x, fold_case x = 58 -> x = 58.
Proof. intros x. unfold fold_case. destruct (65 <=? x) eqn:?, (x <=? 90) eqn:?; cbn; lia. Qed.
Lemma name_colon : forall n name, same_nocase n (name ++ [58]) -> exists m, n = m ++ [58] /\ same_nocase m name.
Proof.
  intros n name H. unfold same_nocase in *. rewrite map_app in H. apply map_eq_app in H as (m & x & -> & H1 & H2).
  exists m. split; auto. destruct x as [|y [|z x]]; try discriminate. cbn in H2. inversion H2. now rewrite (fold_case_colon y).
Qed.
(* the usual first step: the header's name *)
Lemma post_name : forall A E K e1 e2 (name : string) msg i (k : bytes * unit -> res (bytes * A)) V,
  nocase_pair e1 e2 = true -> e1 = bs name ++ [58] ->
  (forall r, post K (k (r, tt)) r (fun t v => exists c, t = c ++ CRLF /\ V c v)) ->
  post K (let* x := tag_no_case E e1 e2 msg i in k x) i (rfc_header name V).
Proof.
  intros A E K e1 e2 name msg i k V Hp He Hk. eapply post_bind; [apply (post_tag_no_case E K); auto|].
  intros n r [] _ Hn. cbn beta in Hn. rewrite He in Hn. apply name_colon in Hn as (m & -> & Hm).
  eapply post_weaken; [apply Hk|]. intros t v (c & -> & Hv). rewrite <- app_assoc. now constructor.
Qed.
Ltac stepcrlf := eapply post_bind; [apply post_tag|]; let c := fresh "c" in let r := fresh "r" in
  intros c r [] _ ->; cbn beta iota.
Lemma sound_header : forall A E K e1 e2 name m1 m2 (p : parser A) V i,
  nocase_pair (bs e1) (bs e2) = true -> bs e1 = bs name ++ [58] -> (forall j, post K (p j) j V) ->
  post K (header E e1 e2 m1 p m2 i) i (rfc_header name V).
Proof.
  intros A E K e1 e2 name m1 m2 p V i H1 H2 Hp. unfold header.
  match goal with |- post _ (bind _ ?k) _ _ => apply (post_name _ E K _ _ name _ _ k) end; auto.
  intros r. cbn beta iota. step Hp. stepcrlf. apply post_ok. exists c. rewrite app_nil_r. auto.
Qed.
Lemma header_nonempty : forall A name (V : bytes -> A -> Prop) c v, rfc_header name V c v -> c <> [].
Proof. intros A name V c v [n c' v' _ _] H. apply app_eq_nil in H as [_ H]. discriminate. Qed.

Lemma sound_date_value : forall E K i, post K (date_time E i) i rfc_date_value.
Proof. intros. apply sound_date_time. Qed.
Lemma sound_text_value : forall E K i, post K (text_value E i) i (rfc_text_value (f_mime E) (textcode E)).
Proof.
  intros. unfold text_value, rfc_text_value. destruct (f_mime E); [apply sound_mime_unstructured|apply sound_unstructured].
Qed.
Lemma sound_bcc_value : forall E K i, post K (bcc_value E i) i (rfc_bcc (f_compatibility_fixes E) (encoded E)).
Proof.
  intros. unfold bcc_value. eapply post_attempt; [apply sound_address_list| |].
  - intros c r a _ H. apply post_ok. rewrite app_nil_r. now constructor.
  - eapply post_attempt; [apply sound_cfws| |exact I]. intros c r a _ H. apply post_ok. rewrite app_nil_r. now apply bcc_empty.
Qed.
Lemma sound_msg_ids : forall E K i, post K (many1 (message_id E) i) i (rfc_msg_ids (f_compatibility_fixes E)).
Proof. intros. apply post_many1; [intros; eapply msg_id_nonempty; eauto|]. intros. apply sound_message_id. Qed.
Lemma sound_keywords_value : forall E K i, post K (keywords_value E i) i (comma_list (rfc_phrase (encoded E))).
Proof. intros. unfold keywords_value. apply sound_comma_list. intros. apply sound_phrase. Qed.
Lemma sound_path : forall E K i, post K (return_path_value E i) i (rfc_path (f_compatibility_fixes E)).
Proof.
  intros. unfold return_path_value. apply post_Forall_match. repeat apply Forall_cons; [| |apply Forall_nil]; apply post_pmap.
  - eapply post_weaken; [apply sound_angle_addr|]. now constructor.
  - unfold empty_path. step (sound_ocfws K). steptag. step (sound_ocfws K). steptag. step (sound_ocfws K). apply post_ok.
    rewrite app_nil_r. now constructor.
Qed.
Lemma sound_received_token : forall E K i, post K (received_token_parser E i) i (rfc_received_token (f_compatibility_fixes E)).
Proof.
  intros. unfold received_token_parser. pose proof (sound_word K i) as W. pose proof (sound_domain E K i) as D.
  destruct (word i) as [[rw w]|e|k]; cbn [attempt post] in *; auto.
  - destruct W as (cw & -> & W). destruct (domain E (cw ++ rw)) as [[rd d]|e|k]; cbn [attempt post] in *; auto.
    + destruct D as (cd & Hd & D). destruct (length w <? length d)%nat; cbn.
      * exists cd. split; auto. now apply token_domain.
      * exists cw. split; auto. now constructor.
    + exists cw. split; auto. now constructor.
  - eapply post_attempt; [apply sound_angle_addr| |].
    { intros c r a _ H. apply post_ok. rewrite app_nil_r. now apply token_angle. }
    eapply post_attempt; [apply sound_addr_spec| |].
    { intros c r a _ H. apply post_ok. rewrite app_nil_r. now apply token_addr. }
    eapply post_attempt; [apply sound_domain| |exact I].
    intros c r a _ H. apply post_ok. rewrite app_nil_r. now apply token_domain.
Qed.
Lemma dot_atom_nonempty : forall b c v, rfc_dot_atom b c v -> c <> [].
Proof.
  intros b c v H E. destruct H as [l a r Hl Ha Hr]. apply app_eq_nil in E as [_ E]. apply app_eq_nil in E as [-> _].
  now apply dot_atom_text_nonempty in Ha.
Qed.
Lemma domain_nonempty : forall b c v, rfc_domain b c v -> c <> [].
Proof.
  intros b c v [c' v' H|c' v' H]; [eapply dot_atom_nonempty; eauto|]. intros E. destruct H. apply app_eq_nil in E as [_ E]. discriminate.
Qed.
Lemma received_token_nonempty : forall b c t, rfc_received_token b c t -> c <> [].
Proof.
  intros b c t [c' w H|c' a H|c' a H|c' d H]; [eapply word_nonempty|eapply angle_addr_nonempty|eapply addr_spec_nonempty|eapply domain_nonempty]; eauto.
Qed.
Lemma sound_received_value : forall E K i, post K (received_value E i) i (rfc_received (f_compatibility_fixes E)).
Proof.
  intros. unfold received_value. eapply post_bind.
  { apply (post_many _ K (received_token_parser E) (rfc_received_token (f_compatibility_fixes E))); [intros; eapply received_token_nonempty; eauto|].
    intros. apply sound_received_token. }
  intros c r l _ Hl. cbn beta iota. steptag. step (sound_date_value E K). apply post_ok. rewrite app_nil_r. now constructor.
Qed.

(* Resent-X is "Resent-" followed by the header X *)
Lemma sound_resent : forall A E K msg (p : parser A) name V i, (forall j, post K (p j) j (rfc_header name V)) ->
  post K (resent E msg p i) i (rfc_header ("Resent-" ++ name) V).
Proof.
  intros A E K msg p name V i Hp. unfold resent.
  eapply post_bind; [apply (post_tag_no_case E K (bs "Resent-") (bs "rESENT-")); reflexivity|]. intros n r [] _ Hn. cbn beta iota.
  eapply post_weaken; [apply Hp|]. intros t v [m c v' Hm Hv]. rewrite app_assoc. constructor; auto.
  unfold same_nocase in *. transitivity (map fold_case n ++ map fold_case m); [apply map_app|].
  transitivity (map fold_case (bs "Resent-") ++ map fold_case (bs name)); [f_equal; assumption|]. symmetry. exact (map_app fold_case (bs "Resent-") (bs name)).
Qed.
Ltac resent_case name L := eapply post_weaken; [apply (sound_resent _ _ _ _ _ name); intros; apply sound_header; [reflexivity|reflexivity|]; intros; apply L|].
Lemma sound_resent_field : forall E K i, post K (resent_field E i) i (rfc_resent (f_compatibility_fixes E) (encoded E)).
Proof.
  intros. unfold resent_field. apply post_Forall_match. repeat apply Forall_cons; [| | | | | | |apply Forall_nil]; apply post_pmap.
  - resent_case "Date"%string (sound_date_value E K). intros. now apply resent_date.
  - resent_case "From"%string (sound_mailbox_list E K). intros. now apply resent_from.
  - resent_case "Sender"%string (sound_mailbox E K). intros. now apply resent_sender.
  - resent_case "To"%string (sound_address_list E K). intros. now apply resent_to.
  - resent_case "Cc"%string (sound_address_list E K). intros. now apply resent_cc.
  - resent_case "Bcc"%string (sound_bcc_value E K). intros. now apply resent_bcc.
  - resent_case "Message-ID"%string (sound_message_id E K). intros. now apply resent_msg_id.
Qed.
Lemma resent_nonempty : forall b EW c f, rfc_resent b EW c f -> c <> [].
Proof. intros b EW c f H. destruct H; eapply header_nonempty; eauto. Qed.

Lemma sound_unknown : forall E K i, post K (unknown E i) i (rfc_unknown E).
Proof.
  intros. unfold unknown. step (sound_take_while1 K is_ftext rfc_ftext i ftext_spec ftext_ascii). destruct H as [-> H]. steptag.
  eapply post_bind with (P := rfc_text_value (f_unrecognized_headers E) (textcode E)).
  { unfold rfc_text_value. destruct (f_unrecognized_headers E); [apply sound_mime_unstructured|apply sound_unstructured]. }
  intros cv rv v _ Hv. cbn beta iota. stepcrlf. apply post_ok. rewrite app_nil_r. now constructor.
Qed.

(* ---- MIME ---- *)
Lemma tspecial_spec : forall c, tspecial c = true <-> In c (bs "()<>@,;:\/[]?=" ++ [34]).
Proof.
  intros. unfold tspecial. rewrite orb_true_iff, one_of_spec, in_app_iff. cbn [In]. unfold DQUOTE. rewrite N.eqb_eq.
  change (bs "()<>[]:;@\,/?=") with [40;41;60;62;91;93;58;59;64;92;44;47;63;61].
  change (bs "()<>@,;:\/[]?=") with [40;41;60;62;64;44;59;58;92;47;91;93;63;61]. cbn [In]. intuition.
Qed.
Lemma token_char_spec : forall c, is_token_char c = true <-> mime_token_char c.
Proof.
  intros. unfold is_token_char, mime_token_char. rewrite <- tspecial_spec. unfold is_wsp.
  rewrite !andb_true_iff, !negb_true_iff, orb_false_iff, !N.ltb_lt, !N.eqb_neq. destruct (tspecial c); intuition (try lia; congruence).
Qed.
Lemma token_char_ascii : forall c, is_token_char c = true -> ascii_byte c.
Proof. intros c H. apply token_char_spec in H as [H _]. unfold ascii_byte. lia. Qed.
Lemma sound_token : forall K i, post K (token i) i (fun c v => v = c /\ mime_token c).
Proof. intros. apply (sound_take_while1 K _ mime_token_char _ token_char_spec token_char_ascii). Qed.
Lemma mime_token_ascii : forall c, mime_token c -> ascii c.
Proof. intros c [_ H]. eapply chars_ascii; [|exact H]. intros x [Hx _]. lia. Qed.

Lemma sound_inline_cfws : forall K i, post K (ignore_inline_cfws i) i (fun c _ => inline_cfws c).
Proof.
  intros. unfold ignore_inline_cfws, triplet.
  eapply post_bind with (P := fun c _ => inline_cfws c).
  - step (sound_take_while K is_wsp rfc_WSP i wsp_spec wsp_ascii). destruct H as [-> H].
    eapply post_bind; [apply post_optional, (sound_comment K)|]. intros cc rc o _ Ho. cbn beta iota.
    step (sound_take_while K is_wsp rfc_WSP rc wsp_spec wsp_ascii). destruct H0 as [-> H0]. apply post_ok. rewrite app_nil_r.
    destruct o as [v|]; [destruct Ho as [_ Ho]; now apply inline_comment|subst cc; now apply inline_blank].
  - intros c r [[? ?] ?] _ H. cbn beta iota. apply post_ok. now rewrite app_nil_r.
Qed.

(* numbers below 256 *)
Lemma u8_loop_sound : forall K n acc i pre, (length i < n)%nat -> number pre = acc -> chars1 rfc_DIGIT pre -> acc < 256 ->
  post K (u8_number_loop n acc i) i (fun c v => chars1 rfc_DIGIT (pre ++ c) /\ v = number (pre ++ c) /\ v < 256).
Proof.
  intros K n. induction n as [|n IH]; intros acc i pre Hn Hp Hd Ha; [lia|]. cbn [u8_number_loop].
  eapply post_attempt; [apply post_digit| |].
  - intros c r d -> (x & -> & Hx & ->). unfold u8_checked_mul, ok_or. destruct (N.ltb_spec (acc * 10) 256) as [H1|H1]; [|exact I].
    cbn [bind]. unfold u8_checked_add, ok_or. destruct (N.ltb_spec (acc * 10 + (x - 48)) 256) as [H2|H2]; [|exact I]. cbn [bind].
    cbn [app length] in Hn. eapply post_weaken; [apply (IH _ _ (pre ++ [x])); auto|].
    + lia.
    + rewrite number_snoc, Hp. lia.
    + destruct Hd as [Hd1 Hd2]. split; [destruct pre; discriminate|]. apply Forall_app. split; auto. constructor; [now apply digit_spec|constructor].
    + intros c v (G1 & G2 & G3). rewrite <- app_assoc in G1, G2. auto.
  - apply post_ok. rewrite app_nil_r. auto.
Qed.
Lemma sound_u8_number : forall K i, post K (u8_number i) i (fun c v => chars1 rfc_DIGIT c /\ v = number c /\ number c < 256).
Proof.
  intros. unfold u8_number. eapply post_bind; [apply post_digit|]. intros c r d _ (x & -> & Hx & ->). cbn beta iota.
  apply digit_spec in Hx. unfold rfc_DIGIT in Hx.
  eapply post_weaken; [apply (u8_loop_sound K _ _ _ [x])|].
  - lia.
  - cbn. lia.
  - split; [discriminate|]. constructor; auto.
  - lia.
  - intros c v (G1 & -> & G3). auto.
Qed.
Lemma sound_mime_version : forall E K i, post K (mime_version E i) i (rfc_header "MIME-Version" rfc_mime_version).
Proof.
  intros. unfold mime_version.
  match goal with |- post _ (bind _ ?k) _ _ => apply (post_name _ E K _ _ "MIME-Version" _ _ k) end; [reflexivity|reflexivity|]. intros r. cbn beta iota.
  step (sound_ocfws K). step (sound_u8_number K). destruct H0 as (H0 & -> & H0'). steptag.
  step (sound_u8_number K). destruct H1 as (H1 & -> & H1'). step (sound_inline_cfws K). stepcrlf. apply post_ok. eexists. split.
  - rewrite app_nil_r. rewrite !app_assoc. reflexivity.
  - rewrite <- !app_assoc. now constructor.
Qed.

(* parameter names *)
Definition unstarred_char (c : byte) : Prop := mime_token_char c /\ c <> 42.
Lemma unstarred_spec : forall c, is_token_char c && negb (c =? 42) = true <-> unstarred_char c.
Proof. intros. unfold unstarred_char. rewrite andb_true_iff, token_char_spec, negb_true_iff, N.eqb_neq. tauto. Qed.
Lemma unstarred_ascii : forall c, is_token_char c && negb (c =? 42) = true -> ascii_byte c.
Proof. intros c H. apply andb_true_iff in H as [H _]. now apply token_char_ascii. Qed.
Lemma parse_below_number : forall b c v, parse_below b c = Some v -> chars rfc_DIGIT c -> v = number c /\ v < b.
Proof.
  intros b c v H Hc. unfold parse_below in H. destruct (N.ltb_spec (decimal c) b); inversion H; subst. split; auto.
  now apply decimal_number.
Qed.
Lemma sound_indexed_name : forall K i, post K (indexed_name i) i
  (fun c x => exists a, fst (fst x) = a /\ rfc_param_name c (map fold_case a, snd (fst x), snd x)).
Proof.
  intros. unfold indexed_name. step (sound_take_while1 K _ unstarred_char i unstarred_spec unstarred_ascii). destruct H as [-> H].
  eapply post_bind.
  { apply post_optional. apply (post_pair_p _ _ K _ _ _ (fun c _ => c = bs "*") (fun c v => v = c /\ chars1 rfc_DIGIT c)).
    - apply post_tag.
    - intros. apply (sound_take_while1 K is_digit rfc_DIGIT j digit_spec digit_ascii). }
  intros ci ri o _ Ho. cbn beta iota.
  eapply post_bind_p with (P := fun ix => rfc_index ci ix).
  { destruct o as [[u ix]|]; [|subst ci; cbn; constructor]. destruct Ho as (c1 & c2 & -> & -> & Hix & Hd). cbn [snd] in Hix. subst ix.
    unfold ok_or. destruct (parse_below 256 c2) as [v|] eqn:Hv; [|exact I]. destruct Hd as [Hd1 Hd2].
    apply parse_below_number in Hv as [-> Hv]; auto. cbn. constructor; auto. split; auto. }
  intros ix Hix.
  eapply post_bind with (P := fun t (e : bool) => t = if e then bs "*" else []).
  { destruct ri as [|y ri]; [apply post_ok; reflexivity|]. destruct (N.eqb_spec y 42) as [->|]; [|apply post_ok; reflexivity].
    cbn. exists [42]. auto. }
  intros t r2 e _ ->. cbn beta iota.
  destruct r2 as [|y r2]; [exact I|]. destruct (N.eqb_spec y 61) as [->|]; [|exact I].
  apply post_ok. rewrite app_nil_r. exists c. split; auto. cbn [fst snd]. now constructor.
Qed.
Lemma sound_param_value : forall K i, post K (match_parsers [token; quoted_string] i) i rfc_param_value.
Proof.
  intros. apply post_Forall_match. repeat apply Forall_cons; [| |apply Forall_nil].
  - eapply post_weaken; [apply sound_token|]. intros c v [-> H]. now constructor.
  - eapply post_weaken; [apply sound_quoted_string|]. now constructor.
Qed.
Lemma sound_parameter : forall K i, post K (parameter i) i rfc_param.
Proof.
  intros. unfold parameter. step (sound_ocfws K). steptag. step (sound_ocfws K).
  eapply post_bind with (P := fun c x => exists a, fst (fst x) = a /\ rfc_param_name c (map fold_case a, snd (fst x), snd x)).
  { apply post_Forall_match. repeat apply Forall_cons; [| |apply Forall_nil]; [apply sound_indexed_name|].
    apply post_pmap. eapply post_weaken; [apply sound_token|]. intros cn v [-> Hv]. exists cn. split; auto. now apply param_name_plain. }
  intros cn rn [[pa ix] e] _ (? & <- & Hn). cbn [fst snd] in Hn. cbn beta iota. steptag. step (sound_param_value K). apply post_ok.
  rewrite app_nil_r. rewrite lowercase_fold. now constructor.
Qed.
Lemma param_nonempty : forall c p, rfc_param c p -> c <> [].
Proof. intros c p H E. destruct H. apply app_eq_nil in E as [_ E]. discriminate. Qed.
Lemma param_value_ascii : forall c v, rfc_param_value c v -> ascii v.
Proof. intros c v [c' H|c' v' H]; [now apply mime_token_ascii|eapply quoted_string_ascii; eauto]. Qed.
Lemma rfc_param_ok : forall c p, rfc_param c p -> param_ok p.
Proof.
  intros c p [w w' n a i e c' v H1 H2 Hn Hv]. split; [eapply param_value_ascii; eauto|].
  inversion Hn; subst; auto. match goal with H : rfc_index _ _ |- _ => inversion H; subst; auto end.
Qed.
Lemma many_param_ok : forall c l, many_of rfc_param c l -> Forall param_ok l.
Proof. intros c l H. induction H; constructor; auto. eapply rfc_param_ok; eauto. Qed.

(* keywords *)
Definition keyword_parsers {A} (E : env) (l : list (bytes * bytes * string * A)) : list (parser A) :=
  map (fun '(e1, e2, msg, a) => pmap (fun _ : unit => a) (tag_no_case E e1 e2 msg)) l.
Lemma sound_keyword_ind : forall A E K (l : list (bytes * bytes * string * A)) (other : bytes -> A) table i,
  Forall (fun '(e1, e2, msg, a) => nocase_pair e1 e2 = true /\ In (e1, a) table) l ->
  (forall n a, In (n, a) table -> (exists e2 msg, In (n, e2, msg, a) l) \/ starts_nocase i n = false) ->
  post K (match_parsers (keyword_parsers E l ++ [pmap (fun name => other (lowercase name)) token]) i) i (rfc_keyword table other).
Proof.
  intros A E K l other table i H. induction H as [|[[[e1 e2] msg] a] l [H1 H2] Hl IH]; intros Ht.
  - cbn [keyword_parsers map app]. apply post_Forall_match. apply Forall_cons; [|apply Forall_nil]. apply post_pmap.
    pose proof (sound_token K i) as T. destruct (token i) as [[r v]|e|k]; cbn [post] in *; auto. destruct T as (c & -> & -> & Hc).
    exists c. split; auto. rewrite lowercase_fold. apply keyword_other; auto. intros n a Hn Hs.
    destruct (Ht n a Hn) as [(? & ? & [])|Hf]. rewrite (starts_nocase_app c r n Hs) in Hf. discriminate.
  - cbn [keyword_parsers map app match_parsers]. unfold pmap at 1. destruct (starts_nocase i e1) eqn:S.
    + apply starts_nocase_spec in S as (n & r & -> & S). rewrite (tag_no_case_ok E e1 e2 msg n r) by auto. cbn [bind attempt].
      exists n. split; auto. eapply keyword_known; eauto.
    + destruct (tag_no_case_err E e1 e2 msg i H1 S) as [e ->]. cbn [bind attempt]. apply IH. intros n b Hn.
      destruct (Ht n b Hn) as [(x2 & mx & [Hx|Hx])|Hf]; eauto. inversion Hx; subst. auto.
Qed.
Lemma sound_keyword : forall A E K (l : list (bytes * bytes * string * A)) (other : bytes -> A) table i,
  Forall (fun '(e1, e2, msg, a) => nocase_pair e1 e2 = true /\ In (e1, a) table) l ->
  (forall n a, In (n, a) table -> exists e2 msg, In (n, e2, msg, a) l) ->
  post K (match_parsers (keyword_parsers E l ++ [pmap (fun name => other (lowercase name)) token]) i) i (rfc_keyword table other).
Proof. intros. apply sound_keyword_ind; auto. Qed.
Ltac keyword_table := intros ? ? Hin; cbn in Hin; repeat (destruct Hin as [Hin|Hin]; [inversion Hin; subst; do 2 eexists; cbn; tauto|]); destruct Hin.
Lemma sound_mime_type : forall E K i, post K (mime_type E i) i (rfc_keyword mime_types CUnknown).
Proof.
  intros. unfold mime_type.
  match goal with |- post _ (match_parsers [pmap _ (tag_no_case _ ?a1 ?b1 ?m1); pmap _ (tag_no_case _ ?a2 ?b2 ?m2); pmap _ (tag_no_case _ ?a3 ?b3 ?m3);
     pmap _ (tag_no_case _ ?a4 ?b4 ?m4); pmap _ (tag_no_case _ ?a5 ?b5 ?m5); pmap _ (tag_no_case _ ?a6 ?b6 ?m6); pmap _ (tag_no_case _ ?a7 ?b7 ?m7); _] _) _ _ =>
    apply (sound_keyword _ E K [(a1, b1, m1, CText); (a2, b2, m2, CMultipart); (a3, b3, m3, CApplication); (a4, b4, m4, CImage); (a5, b5, m5, CVideo);
       (a6, b6, m6, CAudio); (a7, b7, m7, CMessage)] CUnknown mime_types) end.
  - unfold mime_types. repeat apply Forall_cons; try apply Forall_nil; (split; [reflexivity|cbn [In]; tauto]).
  - keyword_table.
Qed.
Lemma sound_encoding_name : forall E K i, post K (encoding_name E i) i (rfc_keyword mime_encodings UnknownEnc).
Proof.
  intros. unfold encoding_name.
  match goal with |- post _ (match_parsers [pmap _ (tag_no_case _ ?a1 ?b1 ?m1); pmap _ (tag_no_case _ ?a2 ?b2 ?m2); pmap _ (tag_no_case _ ?a3 ?b3 ?m3);
     pmap _ (tag_no_case _ ?a4 ?b4 ?m4); pmap _ (tag_no_case _ ?a5 ?b5 ?m5); _] _) _ _ =>
    apply (sound_keyword _ E K [(a1, b1, m1, SevenBit); (a2, b2, m2, QuotedPrintableEnc); (a3, b3, m3, Base64Enc); (a4, b4, m4, HeightBit); (a5, b5, m5, Binary)]
      UnknownEnc mime_encodings) end.
  - unfold mime_encodings. repeat apply Forall_cons; try apply Forall_nil; (split; [reflexivity|cbn [In]; tauto]).
  - keyword_table.
Qed.
Lemma sound_disposition_kind : forall E K i, post K (disposition_kind E i) i (rfc_keyword mime_dispositions DUnknown).
Proof.
  intros. unfold disposition_kind.
  match goal with |- post _ (match_parsers [pmap _ (tag_no_case _ ?a1 ?b1 ?m1); pmap _ (tag_no_case _ ?a2 ?b2 ?m2); _] _) _ _ =>
    apply (sound_keyword _ E K [(a1, b1, m1, DInline); (a2, b2, m2, DAttachment)] DUnknown mime_dispositions) end.
  - unfold mime_dispositions. repeat apply Forall_cons; try apply Forall_nil; (split; [reflexivity|cbn [In]; tauto]).
  - keyword_table.
Qed.

Lemma sound_params : forall K i, post K (many parameter i) i (many_of rfc_param).
Proof. intros. apply post_many; [intros; eapply param_nonempty; eauto|]. intros. apply sound_parameter. Qed.
Lemma sound_content_type : forall E i, (forall x, Permutation (hash_order E x) x) ->
  post (overflow E) (content_type E i) i (rfc_header "Content-Type" (rfc_content_type (textcode E))).
Proof.
  intros E i Hh. set (K := overflow E). unfold content_type.
  match goal with |- post _ (bind _ ?k) _ _ => apply (post_name _ E K _ _ "Content-Type" _ _ k) end; [reflexivity|reflexivity|]. intros r. cbn beta iota.
  step (sound_ocfws K). step (sound_mime_type E K). steptag. step (sound_token K). destruct H1 as [-> H1]. cbv zeta. step (sound_params K).
  eapply post_bind_p; [apply collect_parameters_sound; auto; eapply many_param_ok; eauto|]. intros l Hl.
  step (sound_inline_cfws K). stepcrlf. apply post_ok. eexists. split.
  - rewrite app_nil_r. rewrite !app_assoc. reflexivity.
  - rewrite <- !app_assoc. rewrite lowercase_fold. econstructor; eauto.
Qed.
Lemma sound_encoding : forall E K i, post K (content_transfer_encoding E i) i (rfc_header "Content-Transfer-Encoding" rfc_encoding).
Proof.
  intros. unfold content_transfer_encoding.
  match goal with |- post _ (bind _ ?k) _ _ => apply (post_name _ E K _ _ "Content-Transfer-Encoding" _ _ k) end; [reflexivity|reflexivity|]. intros r. cbn beta iota.
  step (sound_ocfws K). step (sound_encoding_name E K). step (sound_inline_cfws K). stepcrlf. apply post_ok. eexists. split.
  - rewrite app_nil_r. rewrite !app_assoc. reflexivity.
  - rewrite <- !app_assoc. now constructor.
Qed.
Lemma sound_content_id : forall E K i, post K (content_id E i) i (rfc_header "Content-ID" (rfc_msg_id (f_compatibility_fixes E))).
Proof.
  intros. unfold content_id.
  match goal with |- post _ (bind _ ?k) _ _ => apply (post_name _ E K _ _ "Content-ID" _ _ k) end; [reflexivity|reflexivity|]. intros r. cbn beta iota.
  step (sound_message_id E K). stepcrlf. apply post_ok. rewrite app_nil_r. exists c. auto.
Qed.
Lemma sound_content_description : forall E K i, post K (content_description E i) i (rfc_header "Content-Description" (mime_unstructured_text (textcode E))).
Proof.
  intros. unfold content_description.
  match goal with |- post _ (bind _ ?k) _ _ => apply (post_name _ E K _ _ "Content-Description" _ _ k) end; [reflexivity|reflexivity|]. intros r. cbn beta iota.
  step (sound_mime_unstructured E K). stepcrlf. apply post_ok. rewrite app_nil_r. exists c. auto.
Qed.

(* Content-Disposition *)
Lemma sound_filename : forall E K i, post K (filename_parameter E i) i (fun c v => rfc_disposition_item c (DFilename v)).
Proof.
  intros. unfold filename_parameter. step (sound_ocfws K). steptag. step (sound_ocfws K).
  eapply post_bind; [apply (post_tag_no_case E K); reflexivity|]. intros n rn [] _ Hn. cbn beta iota. steptag.
  eapply post_weaken; [apply sound_param_value|]. intros cv v Hv. rewrite <- ?app_assoc. now constructor.
Qed.
Lemma sound_date_parameter : forall E K n1 n2 i, nocase_pair n1 n2 = true ->
  post K (date_parameter E n1 n2 i) i (fun c d => exists w w' n t : bytes, c = w ++ bs ";" ++ w' ++ n ++ [61; 34] ++ t ++ [34] /\ rfc_oCFWS w /\ rfc_oCFWS w' /\ same_nocase n n1 /\ rfc_date_value t d).
Proof.
  intros E K n1 n2 i Hn. unfold date_parameter. step (sound_ocfws K). steptag. step (sound_ocfws K).
  eapply post_bind; [apply (post_tag_no_case E K); auto|]. intros n rn [] _ Hn'. cbn beta iota. steptag.
  step (sound_date_value E K). steptag. apply post_ok. exists c, c0, n. eexists. rewrite app_nil_r. split; [reflexivity|]. auto.
Qed.
Lemma sound_disposition_item : forall E K i, post K (disposition_item_parser E i) i rfc_disposition_item.
Proof.
  intros. unfold disposition_item_parser. apply post_Forall_match. repeat apply Forall_cons; [| | | | |apply Forall_nil]; apply post_pmap.
  - apply sound_filename.
  - eapply post_weaken; [apply (sound_date_parameter E K); reflexivity|]. intros c d (w & w' & n & t & -> & H1 & H2 & H3 & H4). now constructor.
  - eapply post_weaken; [apply (sound_date_parameter E K); reflexivity|]. intros c d (w & w' & n & t & -> & H1 & H2 & H3 & H4). now constructor.
  - eapply post_weaken; [apply (sound_date_parameter E K); reflexivity|]. intros c d (w & w' & n & t & -> & H1 & H2 & H3 & H4). now constructor.
  - eapply post_weaken; [apply sound_parameter|]. now constructor.
Qed.
Lemma item_nonempty : forall c p, rfc_disposition_item c p -> c <> [].
Proof.
  intros c p H E. destruct H; try (apply app_eq_nil in E as [_ E]; discriminate). now apply param_nonempty in H.
Qed.
Lemma item_params_of : forall l, item_params l = params_of l.
Proof. intros. unfold item_params, params_of. apply flat_map_concat_map. Qed.
Lemma items_params_ok : forall c l, many_of rfc_disposition_item c l -> Forall param_ok (params_of l).
Proof.
  intros c l H. unfold params_of. induction H as [|c a cs l Ha Hl IH]; cbn; auto. apply Forall_app. split; auto.
  destruct Ha; constructor; auto. eapply rfc_param_ok; eauto.
Qed.
(* the loop keeps the last value of each kind *)
Lemma fold_items : forall items d,
  fold_left set_item items d =
  {| disposition_type := disposition_type d;
     disp_filename := match last_some (fun i => match i with DFilename v => Some v | _ => None end) items with Some v => Some v | None => disp_filename d end;
     disp_creation_date := match last_some (fun i => match i with DCreation v => Some v | _ => None end) items with Some v => Some v | None => disp_creation_date d end;
     disp_modification_date := match last_some (fun i => match i with DModification v => Some v | _ => None end) items with Some v => Some v | None => disp_modification_date d end;
     disp_read_date := match last_some (fun i => match i with DRead v => Some v | _ => None end) items with Some v => Some v | None => disp_read_date d end;
     disp_unstructured := disp_unstructured d |}.
Proof.
  induction items as [|x items IH]; intros d; [destruct d; reflexivity|]. cbn [fold_left]. rewrite IH. cbn [last_some].
  destruct x; cbn [set_item disposition_type disp_filename disp_creation_date disp_modification_date disp_read_date disp_unstructured];
   f_equal; repeat match goal with |- context [last_some ?f items] => destruct (last_some f items) end; reflexivity.
Qed.
Lemma opt_id : forall A (o : option A), match o with Some v => Some v | None => None end = o.
Proof. intros A []; reflexivity. Qed.
Lemma sound_content_disposition : forall E i, (forall x, Permutation (hash_order E x) x) ->
  post (overflow E) (content_disposition E i) i (rfc_header "Content-Disposition" (rfc_disposition (textcode E))).
Proof.
  intros E i Hh. set (K := overflow E). unfold content_disposition.
  match goal with |- post _ (bind _ ?k) _ _ => apply (post_name _ E K _ _ "Content-Disposition" _ _ k) end; [reflexivity|reflexivity|]. intros r. cbn beta iota.
  step (sound_ocfws K). step (sound_disposition_kind E K).
  eapply post_bind.
  { apply (post_many _ K (disposition_item_parser E) rfc_disposition_item); [intros; eapply item_nonempty; eauto|]. intros. apply sound_disposition_item. }
  intros ci ri items _ Hitems. cbn beta iota.
  eapply post_bind_p; [apply collect_parameters_sound; auto; rewrite item_params_of; eapply items_params_ok; eauto|]. intros l Hl. rewrite item_params_of in Hl.
  step (sound_inline_cfws K). stepcrlf. rewrite fold_items. cbn [disposition_type disp_filename disp_creation_date disp_modification_date disp_read_date disp_unstructured].
  rewrite !opt_id. apply post_ok. eexists. split.
  - rewrite app_nil_r. rewrite !app_assoc. reflexivity.
  - rewrite <- !app_assoc. now constructor.
Qed.

(* ---- one field ---- *)
Lemma Forall_cfg : forall A (P : parser A -> Prop) b p l, (b = true -> P p) -> Forall P l -> Forall P (cfg b p ++ l).
Proof. intros A P [] p l H Hl; cbn; auto. Qed.
Ltac plain_header name := eapply post_weaken; [apply (sound_header _ _ _ _ _ name); [reflexivity|reflexivity|]; intros |].
Lemma sound_any_field : forall E i, (forall x, Permutation (hash_order E x) x) ->
  post (overflow E) (any_field E i) i (field_text E).
Proof.
  intros E i Hh. set (K := overflow E). unfold any_field. apply post_Forall_match. unfold field_parsers.
  repeat (apply Forall_cfg; [intros HE; apply post_pmap|]).
  all: try (apply Forall_cons; [|apply Forall_nil]; apply post_pmap).
  - plain_header "Date"%string; [apply (sound_date_value E K)|]. intros; now apply text_date.
  - plain_header "From"%string; [apply (sound_mailbox_list E K)|]. intros; now apply text_from.
  - plain_header "Sender"%string; [apply (sound_mailbox E K)|]. intros; now apply text_sender.
  - plain_header "Reply-To"%string; [apply (sound_address_list E K)|]. intros; now apply text_reply_to.
  - plain_header "To"%string; [apply (sound_address_list E K)|]. intros; now apply text_to.
  - plain_header "Cc"%string; [apply (sound_address_list E K)|]. intros; now apply text_cc.
  - plain_header "Bcc"%string; [apply (sound_bcc_value E K)|]. intros; now apply text_bcc.
  - plain_header "Message-ID"%string; [apply (sound_message_id E K)|]. intros; now apply text_message_id.
  - plain_header "In-Reply-To"%string; [apply (sound_msg_ids E K)|]. intros; now apply text_in_reply_to.
  - plain_header "References"%string; [apply (sound_msg_ids E K)|]. intros; now apply text_references.
  - plain_header "Subject"%string; [apply (sound_text_value E K)|]. intros; now apply text_subject.
  - plain_header "Comments"%string; [apply (sound_text_value E K)|]. intros; now apply text_comments.
  - eapply post_weaken; [apply (sound_mime_version E K)|]. intros c [x y] H. now apply text_mime_version.
  - eapply post_weaken; [now apply (sound_content_type E)|]. intros c [[t s] p] H. now apply text_content_type.
  - eapply post_weaken; [apply (sound_encoding E K)|]. intros; now apply text_encoding.
  - eapply post_weaken; [apply (sound_content_id E K)|]. intros; now apply text_content_id.
  - eapply post_weaken; [apply (sound_content_description E K)|]. intros; now apply text_content_description.
  - eapply post_weaken; [now apply (sound_content_disposition E)|]. intros; now apply text_content_disposition.
  - plain_header "Keywords"%string; [apply (sound_keywords_value E K)|]. intros; now apply text_keywords.
  - eapply post_weaken; [apply (sound_unknown E K)|]. intros c [n v] H. now apply text_unknown.
Qed.
Lemma unknown_nonempty : forall E c p, rfc_unknown E c p -> c <> [].
Proof. intros E c p [n c' v _ _] H. apply app_eq_nil in H as [_ H]. discriminate. Qed.
Lemma field_text_nonempty : forall E c f, field_text E c f -> c <> [].
Proof.
  intros E c f H. destruct H; try (eapply header_nonempty; now eauto); [|eapply unknown_nonempty; eauto].
  intros K. apply app_eq_nil in K as [_ K]. apply app_eq_nil in K as [-> _].
  match goal with H : r <> [] |- _ => rename H into Hr end. match goal with H : many_of _ [] r |- _ => rename H into Hm end.
  inversion Hm; subst; [congruence|]. match goal with H : _ ++ _ = [] |- _ => apply app_eq_nil in H as [-> _] end.
  match goal with H : rfc_header _ _ [] _ |- _ => now apply header_nonempty in H end.
Qed.
Lemma sound_trace_block : forall E K i, f_trace E = true -> post K (trace_block E i) i (field_text E).
Proof.
  intros E K i HE. unfold trace_block, trace.
  eapply post_bind with (P := fun c x => exists c1 c2, c = c1 ++ c2 /\ rfc_return (f_compatibility_fixes E) c1 (fst x) /\ snd x <> [] /\ many_of (rfc_header "Received" (rfc_received (f_compatibility_fixes E))) c2 (snd x)).
  - eapply post_bind with (P := fun c x => rfc_return (f_compatibility_fixes E) c x).
    + eapply post_weaken; [apply post_optional; apply (sound_header _ E K _ _ "Return-Path"); [reflexivity|reflexivity|intros; apply sound_path]|].
      intros c [v|]; [now apply return_some|intros ->; constructor].
    + intros c1 r1 o _ Ho. cbn beta iota. eapply post_bind.
      * apply (post_many1 _ K (received E) (rfc_header "Received" (rfc_received (f_compatibility_fixes E)))); [intros; eapply header_nonempty; eauto|].
        intros. apply sound_header; [reflexivity|reflexivity|]. intros. apply sound_received_value.
      * intros c2 r2 l _ [Hl1 Hl2]. cbn beta iota. apply post_ok. rewrite app_nil_r. exists c1, c2. auto.
  - intros c r [rp rc] _ (c1 & c2 & -> & H1 & H2 & H3). cbn [fst snd] in *. cbn beta iota. eapply post_bind.
    + apply (post_many _ K (resent_field E) (rfc_resent (f_compatibility_fixes E) (encoded E))); [intros; eapply resent_nonempty; eauto|].
      intros. apply sound_resent_field.
    + intros c3 r3 l _ Hl. cbn beta iota. apply post_ok. rewrite app_nil_r, <- app_assoc. now constructor.
Qed.
Lemma many_of_app : forall A (P : bytes -> A -> Prop) c l c' l', many_of P c l -> many_of P c' l' -> many_of P (c ++ c') (l ++ l').
Proof. intros A P c l c' l' H H'. induction H; cbn; auto. rewrite <- app_assoc. now constructor. Qed.
Theorem sound_fields : forall E i, (forall x, Permutation (hash_order E x) x) ->
  post (overflow E) (fields E i) i (many_of (field_text E)).
Proof.
  intros E i Hh. unfold fields. eapply post_bind with (P := many_of (field_text E)).
  - destruct (f_trace E) eqn:HE; [|apply post_ok; constructor]. apply post_many; [intros; eapply field_text_nonempty; eauto|].
    intros. now apply sound_trace_block.
  - intros c r t _ Ht. cbn beta iota. eapply post_bind.
    + apply (post_many _ _ (any_field E) (field_text E)); [intros; eapply field_text_nonempty; eauto|]. intros. now apply sound_any_field.
    + intros c' r' l _ Hl. cbn beta iota. apply post_ok. rewrite app_nil_r. now apply many_of_app.
Qed.

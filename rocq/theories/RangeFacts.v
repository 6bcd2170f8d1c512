(* C47, one direction: every email returned without mime satisfies the conditions of
   MailSpec.v. *)
From Coq Require Import Lia ZifyBool ZifyNat ZifyN.
From Verif Require Import Base Utf8 CharSets Combinators Whitespace QuotedString Common Time Address MimeFields Fields Message Entity Email Envs
  Rfc5322 Rfc2047 Post CodecSpec RfcFields SoundBase SoundTime SoundAddr TagNoCase SoundFields EmailSpec SoundMessage EmailProofs Steps Complete CompleteFields Forward ForwardText
  ForwardMimeFields ForwardTrace ForwardFields ForwardMessage HeaderFacts LocalFacts Writers WriteFacts TextFacts MailSpec.
Local Open Scope N_scope.

(* ---- values ---- *)
Lemma dtext_atext : forall c, rfc_atext c -> rfc_dtext c.
Proof. intros c H. unfold rfc_atext, rfc_ALPHA, rfc_DIGIT, rfc_dtext in *. cbn in H. lia. Qed.
Lemma dtext_dot_text : forall b t, rfc_dot_atom_text b t -> chars rfc_dtext t.
Proof.
  assert (C : forall a, chars rfc_atext a -> chars rfc_dtext a) by (intros a; apply Forall_impl, dtext_atext).
  intros b t [a t' [_ Ha] Ht]. apply Forall_app. split; [exact (C _ Ha)|]. clear Ha. induction Ht as [|x t0 Hx Hn Ht IH]; [constructor|].
  apply Forall_app. split; [constructor; [unfold rfc_dtext; lia|constructor]|]. apply Forall_app. split; [exact (C _ Hx)|exact IH].
Qed.
Lemma dtext_domain : forall b c d, rfc_domain b c d -> chars rfc_dtext d.
Proof.
  intros b c d [c' v [l a r _ H _]|c' v [l x v' r _ H _]]; [eapply dtext_dot_text; eauto|]. clear - H. induction H; [constructor|]. constructor; auto.
Qed.
Lemma address_value : forall b c a, rfc_addr_spec b c a -> writable_address a.
Proof. intros b c a H. pose proof (plain_addr _ _ _ H) as P. destruct H as [c1 l c2 d H1 H2]. split; cbn; [now apply Forall_inv in P|eapply dtext_domain; eauto]. Qed.
Lemma angle_value : forall b c a, rfc_angle_addr b c a -> writable_address a.
Proof. intros b c a [l c' a' r _ H _]. eapply address_value; eauto. Qed.
Lemma id_range : forall b c i, rfc_msg_id b c i -> id_value b i.
Proof. intros b c i H. destruct H as [l a c' v r H1 H2 H3 H4]. split; cbn; [exact H2|]. destruct H3; [eapply dtext_dot_text; eauto|auto]. Qed.
Lemma many_value : forall A (P : bytes -> A -> Prop) (W : A -> Prop), (forall c a, P c a -> W a) -> forall c l, many_of P c l -> Forall W l.
Proof. intros A P W H c l M. induction M; constructor; eauto. Qed.
Lemma comma_value : forall A (P : bytes -> A -> Prop) (W : A -> Prop), (forall c a, P c a -> W a) -> forall c l, comma_list P c l -> some_of W l.
Proof. intros A P W H c l M. split; [destruct M; discriminate|]. induction M; constructor; eauto. Qed.
Lemma ids_range : forall b c l, rfc_msg_ids b c l -> some_of (id_value b) l.
Proof. intros b c l [Hn H]. split; [exact Hn|]. eapply many_value; [|exact H]. intros. eapply id_range; eauto. Qed.
Section NoWords.
Variable b : bool.
Variable EW : bytes -> bytes -> Prop.
Hypothesis no_words : forall c v, ~ EW c v.
Lemma phrase_value : forall c l, rfc_phrase EW c l -> some_of (chars printable) l.
Proof. intros c l [Hn H]. split; [exact Hn|]. eapply many_value; [|exact H]. intros c' v [c'' v' H'|w x c'' v' _ H']; [eapply plain_word; eauto|]. exfalso. eapply no_words; eauto. Qed.
Lemma mailbox_value : forall c m, rfc_mailbox b EW c m -> writable_mailbox m.
Proof.
  intros c m [c1 n c2 a H1 H2|c' a H|c' a H]; (split; cbn; [eauto using address_value, angle_value|auto]). exact (phrase_value _ _ H1).
Qed.
Lemma mailboxes_value : forall c l, rfc_mailbox_list b EW c l -> some_of writable_mailbox l.
Proof. intros c l H. eapply comma_value; [|exact H]. exact mailbox_value. Qed.
Lemma recipient_value : forall c a, rfc_address b EW c a -> writable_recipient a.
Proof.
  intros c a [c' m H|c' g [c1 n c2 l r H1 H2 H3]]; [exact (mailbox_value _ _ H)|]. destruct (phrase_value _ _ H1) as [N1 N2]. cbn. split; [exact N1|]. split; [exact N2|].
  destruct H2 as [c2 l H2|c2 H2]; [now destruct (mailboxes_value _ _ H2)|constructor].
Qed.
Lemma recipients_value : forall c l, rfc_address_list b EW c l -> some_of writable_recipient l.
Proof. intros c l H. eapply comma_value; [|exact H]. exact recipient_value. Qed.
Lemma bcc_range : forall c l, rfc_bcc b EW c l -> Forall writable_recipient l.
Proof. intros c l [c' l' H|c' H]; [now destruct (recipients_value _ _ H)|constructor]. Qed.
Lemma keywords_range : forall c l, comma_list (rfc_phrase EW) c l -> Forall keyword_value l.
Proof. intros c l H. eapply comma_value in H as [_ H]; [exact H|]. exact phrase_value. Qed.
Lemma resent_range : forall c t, rfc_resent b EW c t -> resent_value b t.
Proof.
  intros c t H. destruct H as [c v H|c v H|c v H|c v H|c v H|c v H|c v H]; apply header_inv in H as [c' H]; cbn; eauto using mailboxes_value, mailbox_value, recipients_value, bcc_range, id_range. now destruct H.
Qed.
End NoWords.
Lemma path_range : forall b c p, rfc_path b c p -> match p with Some a => writable_address a | None => True end.
Proof. intros b c p [c' a H|x y z _ _ _]; [eapply angle_value; eauto|exact I]. Qed.
Lemma token_range : forall b c t, rfc_received_token b c t -> token_value t.
Proof. intros b c t [c' w H|c' a H|c' a H|c' d H]; cbn; [eapply plain_word|eapply angle_value|eapply address_value|eapply dtext_domain]; eauto. Qed.
Lemma received_range : forall b c r, rfc_received b c r -> received_ok r.
Proof. intros b c r [c' l c'' d H [_ Hd]]. split; cbn; [|exact Hd]. eapply many_value; [|exact H]. intros. eapply token_range; eauto. Qed.
Lemma text_range : forall c v, rfc_unstructured c v -> text_line v.
Proof. intros c v H. split; [eapply utext_plain; eauto using plain_app|]. destruct H as [t v w H _]. exact (utext_last _ _ H). Qed.
Lemma block_range : forall E c p r l, f_mime E = false -> field_text E c (FTrace p r l) -> block_value (f_compatibility_fixes E) (p, r, l).
Proof.
  intros E c p r l HM H. inversion H as [| | | | | | | | | | | | | | | | | | |c1 p' c2 r' c3 l' Ht H1 Hn H2 H3|]; subst. split; [|split; [split; [exact Hn|]|]].
  - destruct H1 as [|c p H1]; [exact I|]. apply header_inv in H1 as [c' H1]. exact (path_range _ _ _ H1).
  - eapply many_value; [|exact H2]. intros c' a Ha. apply header_inv in Ha as [c'' Ha]. eapply received_range; eauto.
  - eapply many_value; [|exact H3]. intros. eapply resent_range; eauto. intros c0 v [X _]. congruence.
Qed.

(* ---- the parsers are greedy ---- *)
Lemma many1_inv : forall A (p : parser A) i l r, (forall j r a, p j = Ok (r, a) -> (length r < length j)%nat) -> many1 p i = Ok (r, l) -> steps p i l r /\ l <> [].
Proof.
  intros A p i l r Hp H. unfold many1 in H. destruct (p i) as [[r1 a]|e|k] eqn:P; cbn [bind] in H; try discriminate. destruct (many p r1) as [[r2 l']|e|k] eqn:M; cbn [bind] in H; try discriminate.
  inversion H; subst. split; [|discriminate]. eapply steps_more; eauto. eapply many_inv; eauto.
Qed.
Lemma steps_end : forall A (p : parser A) i l r, steps p i l r -> exists e, p r = Err e.
Proof. intros A p i l r H. induction H; eauto. Qed.
Lemma block_parts : forall E i r p rc l, trace_block E i = Ok (r, FTrace p rc l) ->
  exists i1 i2, optional (return_path E) i = Ok (i1, p) /\ many1 (received E) i1 = Ok (i2, rc) /\ many (resent_field E) i2 = Ok (r, l).
Proof.
  intros E i r p rc l H. unfold trace_block, trace in H. destruct (optional (return_path E) i) as [[i1 p']|e|k]; cbn [bind] in H; try discriminate.
  destruct (many1 (received E) i1) as [[i2 rc']|e|k] eqn:M; cbn [bind] in H; try discriminate. destruct (many (resent_field E) i2) as [[i3 l']|e|k] eqn:M2; cbn [bind] in H; try discriminate.
  inversion H; subst. eauto.
Qed.
Lemma block_trace : forall E i r f, trace_block E i = Ok (r, f) -> exists p rc l, f = FTrace p rc l.
Proof.
  intros E i r f H. unfold trace_block in H. destruct (trace E i) as [[i1 [p rc]]|e|k]; cbn [bind] in H; try discriminate. destruct (many (resent_field E) i1) as [[i2 l]|e|k]; cbn [bind] in H; try discriminate.
  inversion H; subst. eauto.
Qed.
Lemma progress_received : forall E j r a, received E j = Ok (r, a) -> (length r < length j)%nat.
Proof.
  intros E j r a H. pose proof (sound_header _ E never "Received:" "rECEIVED:" "Received" "TAG NO CASE ERROR: Header name (Received) does not match." "TAG ERROR: A header (`Received` in this case) must end with a CRLF sequence."
    (received_value E) (rfc_received (f_compatibility_fixes E)) j eq_refl eq_refl (sound_received_value E never)) as S.
  unfold received in H. rewrite H in S. destruct S as (c & -> & [n t v _ _]). rewrite !app_length. cbn. lia.
Qed.
Lemma progress_resent : forall E j r a, resent_field E j = Ok (r, a) -> (length r < length j)%nat.
Proof.
  intros E j r a H. pose proof (sound_resent_field E never j) as S. rewrite H in S. destruct S as (c & -> & S). rewrite app_length.
  assert (G : (0 < length c)%nat); [|lia]. destruct S as [c v S|c v S|c v S|c v S|c v S|c v S|c v S]; destruct S; rewrite !app_length; cbn; lia.
Qed.
(* a block without resent headers is not followed by a block without return path *)
Lemma block_greedy : forall E i r p rc p' rc' l' r', trace_block E i = Ok (r, FTrace p rc []) -> trace_block E r = Ok (r', FTrace p' rc' l') -> p' <> None.
Proof.
  intros E i r p rc p' rc' l' r' H H' ->. apply block_parts in H as (i1 & i2 & _ & H1 & H2). apply block_parts in H' as (j1 & j2 & H0' & H1' & _).
  apply many1_inv in H1 as [H1 _]; [|apply progress_received]. apply many_inv in H2; [|apply progress_resent]. inversion H2; subst. apply steps_end in H1 as [e9 H1].
  unfold optional in H0'. destruct (return_path E r) as [[x y]|x|x]; cbn [attempt] in H0'; try discriminate. inversion H0'; subst j1.
  unfold many1 in H1'. rewrite H1 in H1'. discriminate.
Qed.
Lemma blocks_apart : forall E i fs r, steps (trace_block E) i fs r -> parted (pick is_trace fs).
Proof.
  intros E i fs r H. induction H as [i e H|i r a l r' H L Hs IH]; [constructor|]. destruct (block_trace _ _ _ _ H) as (p & rc & l1 & ->). change (pick is_trace (FTrace p rc l1 :: l)) with ((p, rc, l1) :: pick is_trace l).
  destruct Hs as [i' e Hs|i' r1 b l2 r2 Hs L2 Hs2]; [constructor|]. destruct (block_trace _ _ _ _ Hs) as (p' & rc' & l' & ->). change (pick is_trace (FTrace p' rc' l' :: l2)) with ((p', rc', l') :: pick is_trace l2) in *.
  constructor; [|exact IH]. destruct l1 as [|x l1]; [|left; discriminate]. right. eapply block_greedy; eauto.
Qed.
(* ---- unknown headers ---- *)
Lemma unknown_inv : forall E i r n v, unknown E i = Ok (r, (n, v)) -> exists t t', i = n ++ [58] ++ t /\ chars1 rfc_ftext n /\
  (if f_unrecognized_headers E then mime_unstructured E else unstructured) t = Ok (t', v) /\ t' = CRLF ++ r.
Proof.
  intros E i r n v H. unfold unknown in H. pose proof (sound_take_while1 never is_ftext rfc_ftext i ftext_spec ftext_ascii) as S. destruct (take_while1 is_ftext i) as [[i1 n']|e|k]; cbn [bind] in H; try discriminate.
  destruct S as (c & -> & -> & Hn). destruct (tag_inv (bs ":") "TAG ERROR: A header name must be followed by a `:`." i1) as [(t & -> & X)|[_ X]]; rewrite X in H; cbn [bind] in H; [|discriminate].
  destruct ((if f_unrecognized_headers E then mime_unstructured E else unstructured) t) as [[t' v']|e|k] eqn:U; cbn [bind] in H; try discriminate.
  destruct (tag_inv CRLF "TAG ERROR: A header must end with a CRLF sequence." t') as [(t2 & -> & Y)|[_ Y]]; rewrite Y in H; cbn [bind] in H; [|discriminate]. inversion H; subst.
  exists t, (CRLF ++ r). auto.
Qed.
(* the parsers before `unknown` have failed *)
Lemma match_skipped : forall A (ps qs : list (parser A)) i p, In p ps -> (forall x, match_parsers ps i <> Ok x) -> (forall k, match_parsers (ps ++ qs) i <> Crash k) -> exists e, p i = Err e.
Proof.
  intros A ps qs i p. induction ps as [|q ps IH]; intros Hp Ho Hc; [destruct Hp|]. cbn [app match_parsers] in *. destruct (q i) as [x|e|k] eqn:Q; cbn [attempt] in *.
  - exfalso. now apply (Ho x).
  - destruct Hp as [->|Hp]; [eauto|]. apply IH; auto.
  - exfalso. now apply (Hc k).
Qed.
Lemma unknown_last : forall E i r n v p, any_field E i = Ok (r, FUnknown n v) -> In p (structured_parsers E) -> unknown E i = Ok (r, (n, v)) /\ exists e, p i = Err e.
Proof.
  intros E i r n v p H Hp. pose proof (any_field_split E i) as S. rewrite H in S. destruct (match_parsers (structured_parsers E) i) as [[r' f]|e|k] eqn:M; [|..|discriminate].
  - inversion S; subst. apply structured_ok in M. discriminate.
  - split.
    + cbn [match_parsers] in S. unfold pmap in S. destruct (unknown E i) as [[r' [n' v']]|e'|k']; cbn [bind attempt] in S; [|discriminate..]. now inversion S.
    + apply (match_skipped _ (structured_parsers E) [] i p Hp); intros; [congruence|]. rewrite app_nil_r, M. discriminate.
Qed.
Lemma not_text_header : forall E i r n v e1 e2 m1 m2 (name : string) (p : parser bytes) F, any_field E i = Ok (r, FUnknown n v) -> f_unrecognized_headers E = false -> p = unstructured ->
  nocase_pair (bs e1) (bs e2) = true -> bs e1 = bs name ++ [58] -> In (pmap F (header E e1 e2 m1 p m2)) (structured_parsers E) -> ~ same_nocase n (bs name).
Proof.
  intros E i r n v e1 e2 m1 m2 name p F H HU -> H1 H2 Hp Hn. destruct (unknown_last _ _ _ _ _ _ H Hp) as [U [e X]]. apply unknown_inv in U as (t & t' & -> & _ & U & ->). rewrite HU in U.
  unfold pmap, header in X. rewrite (name_tag E name (bs e1) (bs e2) m1 n t H1 H2 Hn) in X. cbn [bind] in X. rewrite U in X. cbn [bind] in X. rewrite tag_app in X. discriminate.
Qed.
Ltac in_parsers F := unfold structured_parsers, cfg; rewrite F; repeat (apply in_or_app; first [left; left; reflexivity|right]).
Lemma unknown_range : forall E i r n v, env_ok E -> f_mime E = false -> any_field E i = Ok (r, FUnknown n v) -> unknown_value E (n, v).
Proof.
  intros E i r n v HE HM H. assert (HU : f_unrecognized_headers E = false). { destruct (f_unrecognized_headers E) eqn:U; [|reflexivity]. now rewrite (ok_unrecognized E HE U) in HM. }
  assert (U : unknown E i = Ok (r, (n, v))).
  { pose proof (any_field_split E i) as S. rewrite H in S. destruct (match_parsers (structured_parsers E) i) as [[r' f]|e|k] eqn:M; [|..|discriminate].
    - inversion S; subst. apply structured_ok in M. discriminate.
    - cbn [match_parsers] in S. unfold pmap in S. destruct (unknown E i) as [[r' [n' v']]|e'|k']; cbn [bind attempt] in S; [|discriminate..]. now inversion S. }
  pose proof (sound_unknown E never i) as S. rewrite U in S. destruct S as (c & _ & S). inversion S as [n' c' v' Hn Hv X]; subst. rewrite HU in Hv. cbn in Hv.
  split; [exact Hn|]. split; [exact (text_range _ _ Hv)|]. cbn [fst]. split; intros F.
  - eapply (not_text_header E i r n v "Subject:" "sUBJECT:" _ _ "Subject" (text_value E) FSubject); eauto; try reflexivity; [unfold text_value; now rewrite HM|]. in_parsers F.
  - eapply (not_text_header E i r n v "Comments:" "cOMMENTS:" _ _ "Comments" (text_value E) FComments); eauto; try reflexivity; [unfold text_value; now rewrite HM|]. in_parsers F.
Qed.
(* ---- the email ---- *)
Lemma parse_steps : forall E data e, env_ok E -> f_mime E = false -> parse E data = Ok e ->
  exists t i l r b, (if f_trace E then steps (trace_block E) data t i else t = [] /\ i = data) /\ steps (any_field E) i l r /\ email_of E (t ++ l) b e /\ optional_value true body_text b.
Proof.
  intros E data e HE HM H. assert (X : exists fs b, parse_message E data = Ok (fs, b) /\ email_of E fs b e).
  { destruct (parse_ok_message _ _ _ H) as (fs & b & X). exists fs, b. split; [exact X|]. now apply (parse_iff_email E data fs b e HE X). }
  clear H. destruct X as (fs & b & H & HO). unfold parse_message, fields in H. rewrite HM in H.
  assert (T : exists t i, (if f_trace E then many (trace_block E) data else Ok (data, [])) = Ok (i, t) /\ (if f_trace E then steps (trace_block E) data t i else t = [] /\ i = data)).
  { destruct (f_trace E) eqn:F.
    - destruct (many (trace_block E) data) as [[i t]|e'|k] eqn:M; cbn [bind] in H; try discriminate. exists t, i. split; [reflexivity|]. apply many_inv; [|exact M]. exact (progress_block E F).
    - exists [], data. auto. }
  destruct T as (t & i & T1 & T2). rewrite T1 in H. cbn [bind] in H. destruct (many (any_field E) i) as [[r l]|e'|k] eqn:M; cbn [bind] in H; try discriminate.
  pose proof (body_outcome r) as B. destruct (body r) as [b'|e'|k]; cbn [bind] in H; try discriminate. inversion H; subst fs b'. exists t, i, l, r, b. split; [exact T2|]. split; [apply many_inv; [exact (progress_any_field E HE)|exact M]|].
  split; [exact HO|]. destruct b; [|exact I]. split; [reflexivity|apply B].
Qed.
Lemma any_field_not_trace : forall E i r f, any_field E i = Ok (r, f) -> is_trace f = None.
Proof.
  assert (M : forall A (F : A -> field) (p : parser A), (forall a, is_trace (F a) = None) -> forall i r f, pmap F p i = Ok (r, f) -> is_trace f = None).
  { intros A F q HF i' r' f'. unfold pmap. destruct (q i') as [[x a]|e|k]; cbn; try discriminate. inversion 1; subst. apply HF. }
  intros E i r f H. unfold any_field in H. apply match_ok in H as (p & Hp & H).
  assert (G : Forall (fun p : parser field => forall i r f, p i = Ok (r, f) -> is_trace f = None) (field_parsers E)).
  { unfold field_parsers. repeat (apply Forall_cfg; [intros _; apply M; first [reflexivity|intros [[? ?] ?]; reflexivity|intros [? ?]; reflexivity]|]).
    constructor; [|constructor]. apply M. intros [? ?]. reflexivity. }
  rewrite Forall_forall in G. eapply G; eauto.
Qed.
Definition field_range (E : env) (f : field) : Prop :=
  match f with
  | FDate d => f_date E = true /\ date_in_range d
  | FFrom l => f_from E = true /\ some_of writable_mailbox l
  | FSender m => f_sender E = true /\ writable_mailbox m
  | FReplyTo l => f_reply_to E = true /\ some_of writable_recipient l
  | FTo l => f_to E = true /\ some_of writable_recipient l
  | FCc l => f_cc E = true /\ some_of writable_recipient l
  | FBcc l => f_bcc E = true /\ Forall writable_recipient l
  | FMessageId i => f_message_id E = true /\ id_value (f_compatibility_fixes E) i
  | FInReplyTo l => f_in_reply_to E = true /\ some_of (id_value (f_compatibility_fixes E)) l
  | FReferences l => f_references E = true /\ some_of (id_value (f_compatibility_fixes E)) l
  | FSubject s => f_subject E = true /\ text_line s
  | FComments s => f_comments E = true /\ text_line s
  | FKeywords l => f_keywords E = true /\ Forall keyword_value l
  | FTrace p r l => f_trace E = true /\ block_value (f_compatibility_fixes E) (p, r, l)
  | FUnknown n v => unknown_value E (n, v)
  | _ => False
  end.
Lemma field_text_range : forall E c f, f_mime E = false -> field_text E c f -> is_unknown f = None -> field_range E f.
Proof.
  intros E c f HM H U. assert (NW : forall c v, ~ encoded E c v) by (intros c0 v [X _]; congruence).
  destruct H as [c v Hf H|c v Hf H|c v Hf H|c v Hf H|c v Hf H|c v Hf H|c v Hf H|c v Hf H|c v Hf H|c v Hf H|c v Hf H|c v Hf H|c v Hf H
     |c x y Hf H|c t s p Hf H|c v Hf H|c v Hf H|c v Hf H|c v Hf H|c1 p c2 r c3 l Ht H1 Hn H2 H3|c n v H]; try congruence; try discriminate U; cbn [field_range];
    try (split; [assumption|]; apply header_inv in H as [c' H]; eauto using mailboxes_value, mailbox_value, recipients_value, bcc_range, id_range, ids_range, keywords_range).
  - now destruct H.
  - rewrite HM in H. exact (text_range _ _ H).
  - rewrite HM in H. exact (text_range _ _ H).
  - split; [exact Ht|]. eapply block_range; [exact HM|]. econstructor; eauto.
Qed.
Lemma steps_in : forall A (p : parser A) i l r, steps p i l r -> forall f, In f l -> exists i' r', p i' = Ok (r', f).
Proof. intros A p i l r H. induction H as [|i r a l r' H L Hs IH]; intros f Hf; [destruct Hf|]. destruct Hf as [<-|Hf]; eauto. Qed.
Lemma some_range : forall A (sel : field -> option A) E fs (on : bool) (W : A -> Prop), (forall f, In f fs -> field_range E f) -> (forall f a, sel f = Some a -> field_range E f -> on = true /\ W a) ->
  optional_value on W (only sel fs).
Proof. intros A sel E fs on W HF HS. destruct (only sel fs) as [a|] eqn:O; [|exact I]. apply only_some in O as (f & Hf & S). cbn. eauto. Qed.
Lemma all_range : forall A (sel : field -> option A) E fs (on : bool) (W : A -> Prop), (forall f, In f fs -> field_range E f) -> (forall f a, sel f = Some a -> field_range E f -> on = true /\ W a) ->
  Forall W (pick sel fs) /\ (on = false -> pick sel fs = []).
Proof.
  intros A sel E fs on W HF HS. split.
  - apply Forall_forall. intros a Ha. apply in_pick in Ha as (f & Hf & S). now apply (HS f a S (HF f Hf)).
  - intros ->. apply pick_nil. intros f Hf. destruct (sel f) as [a|] eqn:S; [|reflexivity]. destruct (HS f a S (HF f Hf)). discriminate.
Qed.
Ltac sel := let f := fresh in let a := fresh in let X := fresh in intros f a X ?; destruct f; try discriminate X; injection X as <-; assumption.
Theorem mail_range : forall E data e, env_ok E -> f_mime E = false -> parse E data = Ok e -> mail_value E e.
Proof.
  intros E data e HE HM H. destruct (parse_steps E data e HE HM H) as (t & i & l & r & b & HT & HL & HO & HB).
  assert (HF : forall f, In f (t ++ l) -> field_range E f).
  { intros f Hf. apply in_app_or in Hf as [Hf|Hf].
    - destruct (f_trace E) eqn:F; [|destruct HT as [-> _]; destruct Hf]. destruct (steps_in _ _ _ _ _ HT f Hf) as (i' & r' & X). pose proof (sound_trace_block E never i' F) as S. rewrite X in S. destruct S as (c & _ & S).
      apply (field_text_range E c f HM S). destruct (block_trace _ _ _ _ X) as (? & ? & ? & ->). reflexivity.
    - destruct (steps_in _ _ _ _ _ HL f Hf) as (i' & r' & X). destruct (is_unknown f) as [[n v]|] eqn:U.
      + destruct f; try discriminate U. injection U as -> ->. cbn [field_range]. eapply unknown_range; eauto.
      + pose proof (sound_any_field_nomime E never i' HM) as S. rewrite X in S. destruct S as (c & _ & S). exact (field_text_range E c f HM S U). }
  assert (PT : pick is_trace l = []). { apply pick_nil. intros f Hf. destruct (steps_in _ _ _ _ _ HL f Hf) as (i' & r' & X). eapply any_field_not_trace; eauto. }
  assert (FR : forall l0, only is_from (t ++ l) = Some l0 -> some_of writable_mailbox l0).
  { intros l0 X. apply only_some in X as (f & Hf & X). specialize (HF f Hf). destruct f; try discriminate X. injection X as <-. apply HF. }
  destruct HO as [O1 O2 O3 O4 O5 O6 O7 O8 O9 O10 O11 O12 O13 O14 O15 O16 O17 O18]. rewrite HM in O17, O18. constructor.
  - destruct (f_from E); [now apply FR|exact O2].
  - destruct (f_sender E) eqn:F; [|exact O4]. destruct O4 as [O4 N]. destruct (sender e) as [m|]; [|congruence]. exists m. split; [reflexivity|]. rewrite (ok_sender E HE F) in O2.
    destruct (only is_sender (t ++ l)) as [m'|] eqn:S; cbn in O4.
    + injection O4 as ->. apply only_some in S as (f & Hf & S). specialize (HF f Hf). destruct f; try discriminate S. injection S as ->. apply HF.
    + destruct (FR _ O2) as [_ W]. destruct (from e) as [|m' [|? ?]]; try discriminate O4. injection O4 as <-. now apply Forall_inv in W.
  - destruct (f_date E); [|exact O3]. destruct O3 as [O3 N]. destruct (date_of e) as [d|]; [|congruence]. exists d. split; [reflexivity|]. apply only_some in O3 as (f & Hf & S). specialize (HF f Hf). destruct f; try discriminate S. injection S as ->. apply HF.
  - rewrite O5. eapply some_range; [exact HF|sel].
  - rewrite O6. eapply some_range; [exact HF|sel].
  - rewrite O7. eapply some_range; [exact HF|sel].
  - rewrite O8. eapply some_range; [exact HF|sel].
  - rewrite O12. eapply some_range; [exact HF|sel].
  - rewrite O9. eapply some_range; [exact HF|sel].
  - rewrite O10. eapply some_range; [exact HF|sel].
  - rewrite O11. eapply some_range; [exact HF|sel].
  - rewrite O13. eapply all_range; [exact HF|sel].
  - rewrite O14. destruct (all_range _ is_keywords E (t ++ l) (f_keywords E) (Forall keyword_value) HF) as [K1 K2]; [sel|]. split; [|intros F; now rewrite (K2 F)]. apply Forall_concat. exact K1.
  - rewrite O15. destruct (all_range _ is_trace E (t ++ l) (f_trace E) (block_value (f_compatibility_fixes E)) HF) as [K1 K2]; [sel|]. split; [exact K1|]. split; [|exact K2].
    rewrite pick_app, PT, app_nil_r. destruct (f_trace E); [eapply blocks_apart; eauto|]. destruct HT as [-> _]. constructor.
  - rewrite O16. eapply (all_range _ is_unknown E (t ++ l) true); [exact HF|]. intros f a X ?. destruct f; try discriminate X. injection X as <-. auto.
  - rewrite O17. exact HB.
  - exact O18.
Qed.

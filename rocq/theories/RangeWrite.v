(* C47, the other direction: every email that satisfies the conditions of MailSpec.v is
   returned for some text. *)
From Coq Require Import Lia ZifyBool ZifyNat ZifyN.
From Verif Require Import Base Utf8 CharSets Combinators Whitespace QuotedString Common Time Address MimeFields Fields Message Entity Email Envs
  Rfc5322 Rfc2047 Post CodecSpec RfcFields SoundBase SoundTime SoundAddr TagNoCase SoundFields EmailSpec SoundMessage EmailProofs Steps Complete CompleteFields Forward ForwardText
  ForwardMimeFields ForwardTrace ForwardFields ForwardMessage HeaderFacts LocalFacts Writers WriteFacts WriteAddr WriteRest LinedFacts RegularFacts NeatFacts MailSpec RangeFacts.
Local Open Scope N_scope.

(* ---- lines that end with a blank ---- *)
(* a value made of lines, followed by a line end, is the rest of the line *)
Lemma printable_13 : forall c, printable c -> c <> 13.
Proof. intros c [H|H]; unfold rfc_VCHAR, rfc_WSP in H; lia. Qed.
Lemma first_line : forall x c t t', chars printable x -> lined c -> no_blank t -> x ++ CRLF ++ t = c ++ CRLF ++ t' -> c = x.
Proof.
  induction x as [|a x IH]; intros c t t' Hx Hc Ht E.
  - destruct Hc as [|b c Hb Hc|w c Hw Hc]; [reflexivity|..]; cbn in E.
    + injection E as <- _. exfalso. now apply (printable_13 13).
    + injection E as E. exfalso. eapply Ht; [|exact Hw]. exact E.
  - apply Forall_inv in Hx as Ha. apply Forall_inv_tail in Hx. destruct Hc as [|b c Hb Hc|w c Hw Hc]; cbn in E.
    + injection E as -> _. exfalso. now apply (printable_13 13).
    + injection E as -> E. f_equal. exact (IH c t t' Hx Hc Ht E).
    + injection E as -> _. exfalso. now apply (printable_13 13).
Qed.
Lemma untidy : forall v, text_line v -> ~ tidy (v ++ [32]).
Proof.
  intros v [Hp Hl] H. destruct (H v [32] eq_refl) as (b & y & -> & [-> | Hy]); [split; [discriminate|repeat constructor]| |].
  - apply Forall_app in Hp as [_ Hp]. apply Forall_inv in Hp as [Hp|Hp]; unfold rfc_VCHAR, rfc_WSP in Hp; lia.
  - exact (Hl b y eq_refl Hy).
Qed.
(* a value parser that takes neither blanks at the end of a line nor the next line *)
Definition strict {A} (p : parser A) : Prop := (forall j, neat (p j) j) /\ exists V : bytes -> A -> Prop, (forall j, post never (p j) j V) /\ forall c v, V c v -> lined c.
Lemma strict_stops : forall A (p : parser A) v t m2, strict p -> text_line v -> no_blank t ->
  exists e, (let* (i, a) := p ((v ++ [32]) ++ CRLF ++ t) in let* (i, _) := tag CRLF m2 i in Ok (i, a)) = Err e.
Proof.
  intros A p v t m2 (HN & V & HV & HL) Hv Ht. specialize (HN ((v ++ [32]) ++ CRLF ++ t)). specialize (HV ((v ++ [32]) ++ CRLF ++ t)).
  destruct (p ((v ++ [32]) ++ CRLF ++ t)) as [[r a]|e|k]; cbn [bind]; [|eauto|destruct HV].
  destruct (tag_inv CRLF m2 r) as [(t' & -> & X)|[_ X]]; rewrite X; cbn [bind]; [|eauto]. exfalso. destruct HN as (c & E & HN). destruct HV as (c' & E' & HV).
  assert (C : c = c'). { rewrite E in E'. now apply app_inv_tail in E'. } subst c'. apply HL in HV. assert (P : chars printable (v ++ [32])). { apply Forall_app. split; [apply Hv|]. constructor; [right; left; reflexivity|constructor]. }
  pose proof (first_line _ _ _ _ P HV Ht E) as X'. subst c. apply (untidy v Hv). apply HN. exists t'. split; [reflexivity|].
  apply app_inv_head in E. cbn in E. injection E as <-. exact Ht.
Qed.
(* an unknown header as written: with a blank at the end of the line *)
Definition unknown_line (u : bytes * bytes) : bytes := fst u ++ [58] ++ (snd u ++ [32]) ++ CRLF.
Lemma header_stops : forall A E e1 e2 m1 (p : parser A) m2 (name : string) n v t, nocase_pair (bs e1) (bs e2) = true -> bs e1 = bs name ++ [58] -> ~ In 58 (bs name) ->
  strict p -> ~ In 58 n -> text_line v -> no_blank t -> exists e, header E e1 e2 m1 p m2 (unknown_line (n, v) ++ t) = Err e.
Proof.
  intros A E e1 e2 m1 p m2 name n v t H1 H2 Hc Hp Hn Hv Ht. unfold unknown_line. cbn [fst snd]. rewrite <- !app_assoc. destruct (starts_nocase (n ++ [58] ++ v ++ [32] ++ CRLF ++ t) (bs name ++ [58])) eqn:S.
  - apply starts_nocase_spec in S as (m & r & X & H). apply name_colon in H as (k & -> & Hk). rewrite <- app_assoc in X. apply colon_unique in X as [-> _]; [|exact Hn|eapply fold_nocolon; eauto].
    unfold header. rewrite (name_tag E name (bs e1) (bs e2) m1 k _ H1 H2 Hk). cbn [bind]. pose proof (strict_stops A p v t m2 Hp Hv Ht) as X. rewrite <- !app_assoc in X. exact X.
  - eapply header_without; eauto.
Qed.
Lemma resent_stops : forall A E m e1 e2 m1 (p : parser A) m2 (name : string) n v t, nocase_pair (bs e1) (bs e2) = true -> bs e1 = bs name ++ [58] -> ~ In 58 (bs name) ->
  strict p -> ~ In 58 n -> text_line v -> no_blank t -> exists e, resent E m (header E e1 e2 m1 p m2) (unknown_line (n, v) ++ t) = Err e.
Proof.
  intros A E m e1 e2 m1 p m2 name n v t H1 H2 Hc Hp Hn Hv Ht. unfold resent. destruct (starts_nocase (unknown_line (n, v) ++ t) (bs "Resent-")) eqn:S.
  - apply starts_nocase_spec in S as (a & r & X & Ha). rewrite X. rewrite (tag_no_case_ok E (bs "Resent-") (bs "rESENT-") m a) by (auto; reflexivity). cbn [bind].
    assert (Na : ~ In 58 a) by (eapply fold_nocolon; [exact Ha|no_colon]). assert (Y : exists n', n = a ++ n' /\ r = unknown_line (n', v) ++ t).
    { unfold unknown_line in *. cbn [fst snd] in *. rewrite <- !app_assoc in X. apply app_eq_app in X as (l & [[-> X]|[-> X]]).
      - exists l. split; [reflexivity|]. rewrite X, <- !app_assoc. reflexivity.
      - destruct l as [|y l]; [exists []; rewrite !app_nil_r; split; [reflexivity|]; cbn [app] in X; rewrite <- X, <- !app_assoc; reflexivity|]. injection X as <- X. exfalso. apply Na. apply in_or_app. right. now left. }
    destruct Y as (n' & -> & ->). eapply header_stops; eauto. intros Z. apply Hn. apply in_or_app. now right.
  - destruct (tag_no_case_err E (bs "Resent-") (bs "rESENT-") m (unknown_line (n, v) ++ t)) as [e ->]; auto. cbn. eauto.
Qed.

(* ---- the value parsers ---- *)
Lemma strict_date : forall E, strict (date_time E).
Proof. intros E. split; [intros; apply firm_neat, firm_date_time|]. exists rfc_date_value. split; [intros; apply sound_date_value|exact lined_date]. Qed.
Lemma strict_mailbox : forall E, strict (mailbox E).
Proof. intros E. split; [intros; apply firm_neat, firm_mailbox|]. eexists. split; [intros; apply sound_mailbox|apply lined_mailbox]. Qed.
Lemma strict_mailboxes : forall E, strict (mailbox_list E).
Proof. intros E. split; [intros; apply firm_neat, firm_mailbox_list|]. eexists. split; [intros; apply sound_mailbox_list|apply lined_mailbox_list]. Qed.
Lemma strict_addresses : forall E, strict (address_list E).
Proof. intros E. split; [intros; apply firm_neat, firm_address_list|]. eexists. split; [intros; apply sound_address_list|apply lined_address_list]. Qed.
Lemma strict_bcc : forall E, strict (bcc_value E).
Proof. intros E. split; [intros; apply neat_bcc_value|]. eexists. split; [intros; apply sound_bcc_value|apply lined_bcc]. Qed.
Lemma strict_id : forall E, strict (message_id E).
Proof. intros E. split; [intros; apply firm_neat, firm_message_id|]. eexists. split; [intros; apply sound_message_id|apply lined_id]. Qed.
Lemma strict_ids : forall E, strict (many1 (message_id E)).
Proof. intros E. split; [intros; apply neat_ids|]. eexists. split; [intros; apply sound_msg_ids|apply lined_ids]. Qed.
Lemma strict_keywords : forall E, strict (keywords_value E).
Proof. intros E. split; [intros; apply neat_keywords_value|]. eexists. split; [intros; apply sound_keywords_value|]. intros c v. apply lined_comma. intros c' a. apply lined_phrase. Qed.
Lemma strict_path : forall E, strict (return_path_value E).
Proof. intros E. split; [intros; apply neat_return_path_value|]. eexists. split; [intros; apply sound_path|apply lined_path]. Qed.
Lemma strict_received : forall E, strict (received_value E).
Proof. intros E. split; [intros; apply neat_received_value|]. eexists. split; [intros; apply sound_received_value|apply lined_received]. Qed.

(* ---- unknown headers ---- *)
Lemma match_err : forall A (ps : list (parser A)) i, Forall (fun p : parser A => exists e, p i = Err e) ps -> exists e, match_parsers ps i = Err e.
Proof. intros A ps i H. induction H as [|p ps [e Hp] _ IH]; cbn [match_parsers]; [eauto|]. rewrite Hp. exact IH. Qed.
Lemma line_text : forall v, text_line v -> rfc_unstructured (v ++ [32]) v.
Proof.
  intros v [Hp Hl]. apply unfolded_iff. rewrite <- (app_nil_r (v ++ [32])). apply (unfolded_intro (v ++ [32]) []); [|constructor|].
  - apply Forall_app. split; [exact Hp|]. constructor; [right; left; reflexivity|constructor].
  - exists [32]. cbn [concat]. rewrite app_nil_r. split; [reflexivity|]. split; [repeat constructor|exact Hl].
Qed.
Lemma whole_text : forall v, text_line v -> rfc_unstructured v v.
Proof.
  intros v [Hp Hl]. apply unfolded_iff. rewrite <- (app_nil_r v) at 1. apply (unfolded_intro v []); [exact Hp|constructor|].
  exists []. cbn [concat]. split; [reflexivity|]. split; [constructor|exact Hl].
Qed.
Lemma ftext_colon : forall n, chars rfc_ftext n -> ~ In 58 n.
Proof. intros n H X. unfold chars in H. rewrite Forall_forall in H. apply H in X. unfold rfc_ftext in X. lia. Qed.
Ltac stops nm S := apply pmap_err; apply header_stops with (name := nm); [reflexivity|reflexivity|no_colon|apply S|assumption|assumption|assumption].
Lemma unknown_line_read : forall E n v t, f_mime E = false -> f_unrecognized_headers E = false -> unknown_value E (n, v) -> no_blank t ->
  any_field E (unknown_line (n, v) ++ t) = Ok (t, FUnknown n v).
Proof.
  intros E n v t HM HU (Hn & Hv & Hs & Hc) Ht. cbn [fst snd] in *. pose proof (ftext_colon n (proj2 Hn)) as Nc. rewrite any_field_split.
  destruct (match_err _ (structured_parsers E) (unknown_line (n, v) ++ t)) as [e ->].
  - unfold structured_parsers. repeat (apply Forall_cfg; [let F := fresh "F" in intros F|]); try congruence.
    + stops "Date"%string strict_date.
    + stops "From"%string strict_mailboxes.
    + stops "Sender"%string strict_mailbox.
    + stops "Reply-To"%string strict_addresses.
    + stops "To"%string strict_addresses.
    + stops "Cc"%string strict_addresses.
    + stops "Bcc"%string strict_bcc.
    + stops "Message-ID"%string strict_id.
    + stops "In-Reply-To"%string strict_ids.
    + stops "References"%string strict_ids.
    + apply pmap_err. apply header_without with (name := "Subject"%string); [reflexivity|reflexivity|]. unfold unknown_line. cbn [fst snd]. rewrite <- !app_assoc. apply named_without; [exact Nc|no_colon|auto].
    + apply pmap_err. apply header_without with (name := "Comments"%string); [reflexivity|reflexivity|]. unfold unknown_line. cbn [fst snd]. rewrite <- !app_assoc. apply named_without; [exact Nc|no_colon|auto].
    + rewrite <- (app_nil_r (cfg _ _)). apply Forall_cfg; [|constructor]. intros F. stops "Keywords"%string strict_keywords.
  - cbn [match_parsers]. unfold pmap. unfold unknown_line. cbn [fst snd]. rewrite <- !(app_assoc n), <- (app_assoc [58]), <- (app_assoc (v ++ [32])).
    rewrite (unknown_forward E n (v ++ [32]) v t Hn); [reflexivity| |now apply no_blank_ends]. rewrite HU. cbn. now apply line_text.
Qed.
Lemma unknown_line_trace : forall E n v t, unknown_value E (n, v) -> no_blank t ->
  (exists e, trace_block E (unknown_line (n, v) ++ t) = Err e) /\ (exists e, resent_field E (unknown_line (n, v) ++ t) = Err e) /\ (exists e, received E (unknown_line (n, v) ++ t) = Err e).
Proof.
  intros E n v t (Hn & Hv & _ & _) Ht. cbn [fst snd] in *. pose proof (ftext_colon n (proj2 Hn)) as Nc.
  assert (R : exists e, received E (unknown_line (n, v) ++ t) = Err e) by (apply header_stops with (name := "Received"%string); [reflexivity|reflexivity|no_colon|apply strict_received|assumption|assumption|assumption]).
  split; [|split; [|exact R]].
  - unfold trace_block, trace, optional. assert (P : exists e, return_path E (unknown_line (n, v) ++ t) = Err e) by (apply header_stops with (name := "Return-Path"%string); [reflexivity|reflexivity|no_colon|apply strict_path|assumption|assumption|assumption]).
    destruct P as [e ->]. cbn [attempt bind]. unfold many1. destruct R as [e' ->]. cbn. eauto.
  - unfold resent_field. apply match_err. repeat apply Forall_cons; [..|apply Forall_nil]; apply pmap_err.
    + apply resent_stops with (name := "Date"%string); [reflexivity|reflexivity|no_colon|apply strict_date|assumption..].
    + apply resent_stops with (name := "From"%string); [reflexivity|reflexivity|no_colon|apply strict_mailboxes|assumption..].
    + apply resent_stops with (name := "Sender"%string); [reflexivity|reflexivity|no_colon|apply strict_mailbox|assumption..].
    + apply resent_stops with (name := "To"%string); [reflexivity|reflexivity|no_colon|apply strict_addresses|assumption..].
    + apply resent_stops with (name := "Cc"%string); [reflexivity|reflexivity|no_colon|apply strict_addresses|assumption..].
    + apply resent_stops with (name := "Bcc"%string); [reflexivity|reflexivity|no_colon|apply strict_bcc|assumption..].
    + apply resent_stops with (name := "Message-ID"%string); [reflexivity|reflexivity|no_colon|apply strict_id|assumption..].
Qed.

(* ---- values ---- *)
Lemma tidily_ink : forall A (V : bytes -> A -> Prop) c v, V c v -> ends_ink c -> tidily V c v.
Proof. intros A V c v H1 H2. split; [exact H1|now apply ink_tidy]. Qed.
Lemma header_text : forall A (name : string) (V : bytes -> A -> Prop) c v, V c v -> rfc_header name V (bs name ++ [58] ++ c ++ CRLF) v.
Proof. intros. constructor; [reflexivity|assumption]. Qed.
Section Values.
Context (m : bool) (EW : bytes -> bytes -> Prop) (b : bool).
Lemma date_text : forall d, date_in_range d -> exists c, tidily rfc_date_value c d.
Proof. intros d H. destruct (some_date d H) as [c Hc]. exists c. apply tidily_ink; [exact (date_written [] c d (Forall_nil _) Hc H)|eapply date_ink; eauto]. Qed.
Lemma mailbox_text : forall x, writable_mailbox x -> exists c, tidily (clear_mailbox m b EW) c x.
Proof. intros x H. destruct (some_mailbox x H) as [c Hc]. exists c. apply tidily_ink; [exact (mailbox_clear m b EW [] c x (Forall_nil _) Hc)|eapply mailbox_ink; eauto]. Qed.
Lemma mailboxes_text : forall l, some_of writable_mailbox l -> exists c, tidily (clear_mailbox_list m b EW) c l.
Proof.
  intros l [Hn H]. destruct (some_mailboxes l Hn H) as [c Hc]. exists c. apply tidily_ink; [|revert Hc; apply list_ink; intros; eapply mailbox_ink; eauto].
  exact (list_clear _ _ _ (fun s c a => mailbox_clear m b EW s c a) c l Hc [] (Forall_nil _)).
Qed.
Lemma recipients_text : forall l, some_of writable_recipient l -> exists c, tidily (clear_address_list m b EW) c l.
Proof.
  intros l [Hn H]. destruct (some_recipients l Hn H) as [c Hc]. exists c. apply tidily_ink; [|revert Hc; apply list_ink; intros; eapply recipient_ink; eauto].
  exact (list_clear _ _ _ (fun s c a => recipient_clear m b EW s c a) c l Hc [] (Forall_nil _)).
Qed.
Lemma bcc_text : forall l, Forall writable_recipient l -> exists c, tidily (clear_bcc m b EW) c l.
Proof.
  intros [|a l] H.
  - exists ([40] ++ [] ++ [41]). apply tidily_ink; [|exists [40], 41; split; [reflexivity|unfold rfc_WSP; lia]]. apply clear_bcc_empty.
    rewrite <- (app_nil_r ([40] ++ [] ++ [41])). eapply CFWS_comments; [|constructor].
    rewrite <- (app_nil_l ([40] ++ [] ++ [41])). eapply comments_one; [constructor|]. constructor. eapply cbody_end. constructor.
  - destruct (recipients_text (a :: l)) as (c & Hc & Ht); [split; [discriminate|exact H]|]. exists c. split; [now constructor|exact Ht].
Qed.
Lemma id_text : forall i, id_value b i -> rfc_msg_id b (bs "<" ++ fst i ++ bs "@" ++ ([91] ++ snd i ++ [93]) ++ bs ">") i.
Proof.
  intros [x y] [H1 H2]. cbn [fst snd] in *. rewrite <- (app_nil_r (bs ">")). rewrite <- (app_nil_l (bs "<" ++ _)). constructor; [constructor|exact H1|now constructor|constructor].
Qed.
Lemma ids_text : forall l, Forall (id_value b) l -> exists c, many_of (rfc_msg_id b) c l /\ (l <> [] -> ends_ink c).
Proof.
  intros l H. induction H as [|i l Hi _ (c & IH & IK)]; [exists []; split; [constructor|congruence]|]. eexists. split; [constructor; [apply id_text; exact Hi|exact IH]|].
  intros _. destruct l as [|j l]; [inversion IH; subst|apply ink_app, IK; discriminate]. change (bs ">") with [62]; rewrite app_nil_r, !app_assoc; apply ink_one; unfold rfc_WSP; lia.
Qed.
Lemma msg_id_text : forall i, id_value b i -> exists c, tidily (rfc_msg_id b) c i.
Proof. intros i H. eexists. apply tidily_ink; [apply id_text; exact H|]. change (bs ">") with [62]; rewrite !app_assoc; apply ink_one; unfold rfc_WSP; lia. Qed.
Lemma msg_ids_text : forall l, some_of (id_value b) l -> exists c, tidily (rfc_msg_ids b) c l.
Proof. intros l [Hn H]. destruct (ids_text l H) as (c & Hc & Hi). exists c. apply tidily_ink; [split; assumption|auto]. Qed.
Lemma keywords_text : forall l, l <> [] -> Forall keyword_value l -> exists c, tidily (clear_keywords m EW) c l.
Proof.
  intros l Hn H. destruct (some_list _ written_words keyword_value (fun k Hk => some_words k (proj1 Hk) (proj2 Hk)) l Hn H) as [c Hc]. exists c.
  apply tidily_ink; [exact (keywords_written m EW [] c l (Forall_nil _) Hc)|revert Hc; apply list_ink; intros; eapply words_ink; eauto].
Qed.
Lemma path_text : forall p, match p with Some a => writable_address a | None => True end -> exists c, tidily (rfc_path b) c p.
Proof.
  clear m EW. intros [a|] H.
  - destruct (some_address a H) as [c Hc]. eexists. apply tidily_ink; [constructor; exact (angle_written b [] c a (Forall_nil _) Hc)|]. change (bs ">") with [62]; rewrite !app_assoc; apply ink_one; unfold rfc_WSP; lia.
  - exists ([] ++ bs "<" ++ [] ++ bs ">" ++ []). apply tidily_ink; [constructor; constructor|]. exists [60], 62. split; [reflexivity|unfold rfc_WSP; lia].
Qed.
Lemma token_text : forall t, token_value t -> exists c, clear_token b c t.
Proof.
  intros [w|a|d] H; cbn in H.
  - eexists. apply clear_token_quoted. apply quoting_qbody. apply escaped_quoting. exact H.
  - destruct (some_address a H) as [c Hc]. exists ([60] ++ c ++ [62]). apply clear_token_angle. pose proof (address_clear false b [] c a (Forall_nil _) Hc) as X. cbn [app] in X. destruct X; constructor; auto; now constructor.
  - exists ([91] ++ d ++ [93]). apply clear_token_literal. clear - H. induction H as [|x d Hx _ IH]; [eapply dbody_end; constructor|]. change (x :: d) with ([] ++ [x] ++ d) at 1. econstructor; [constructor|exact Hx|exact IH].
Qed.
Lemma tokens_text : forall l, l <> [] -> Forall token_value l -> exists c, clear_tokens b c l.
Proof.
  intros l Hn H. induction H as [|t l Ht Hl IH]; [congruence|]. destruct (token_text t Ht) as [c Hc]. destruct l as [|t2 l].
  - eexists. eapply clear_tokens_one; [exact Hc|constructor].
  - destruct IH as [cs Hcs]; [discriminate|]. eexists. eapply clear_tokens_more; [exact Hc|apply oCFWS_some; eapply CFWS_fws; exact space_FWS|constructor|discriminate|exact Hcs].
Qed.
Lemma received_text : forall r, received_ok r -> exists c, tidily (clear_received b) c r.
Proof.
  intros [l d] [H1 H2]. cbn [fst snd] in *. destruct (some_date d H2) as [c' Hc']. pose proof (date_written [] c' d (Forall_nil _) Hc' H2) as Hd. cbn [app] in Hd. pose proof (date_ink _ _ Hc') as Hi. destruct l as [|t l].
  - eexists. apply tidily_ink; [constructor; exact Hd|]. now apply ink_app.
  - destruct (tokens_text (t :: l)) as [c Hc]; [discriminate|exact H1|]. eexists. apply tidily_ink; [eapply clear_received_some; [|exact Hc|exact Hd]; constructor|]. now repeat apply ink_app.
Qed.
Lemma resent_text : forall t, resent_value b t -> exists c, clear_resent m b EW c t.
Proof.
  intros [d|l|x|l|l|l|i] H; cbn in H.
  - destruct (date_text d H) as [c Hc]. eexists. constructor. apply header_text. exact Hc.
  - destruct (mailboxes_text l H) as [c Hc]. eexists. constructor. apply header_text. exact Hc.
  - destruct (mailbox_text x H) as [c Hc]. eexists. constructor. apply header_text. exact Hc.
  - destruct (recipients_text l H) as [c Hc]. eexists. constructor. apply header_text. exact Hc.
  - destruct (recipients_text l H) as [c Hc]. eexists. constructor. apply header_text. exact Hc.
  - destruct (bcc_text l H) as [c Hc]. eexists. constructor. apply header_text. exact Hc.
  - destruct (msg_id_text i H) as [c Hc]. eexists. constructor. apply header_text. exact Hc.
Qed.
End Values.
Lemma many_text : forall A (P : bytes -> A -> Prop) (W : A -> Prop), (forall a, W a -> exists c, P c a) -> forall l, Forall W l -> exists c, many_of P c l.
Proof. intros A P W HP l H. induction H as [|a l Ha _ [c IH]]; [exists []; constructor|]. destruct (HP a Ha) as [c' Hc']. eexists. constructor; eauto. Qed.
Definition trace_header (t : block) : field := let '(p, r, l) := t in FTrace p r l.
Lemma block_text : forall E t, block_value (f_compatibility_fixes E) t -> exists c, clear_block E c (trace_header t).
Proof.
  intros E [[p r] l] (Hp & [Hn Hr] & Hl). cbn [trace_header].
  destruct (many_text _ (rfc_header "Received" (tidily (clear_received (f_compatibility_fixes E)))) received_ok) with (l := r) as [c2 H2];
    [intros a Ha; destruct (received_text (f_compatibility_fixes E) a Ha) as [c Hc]; eexists; apply header_text; exact Hc|exact Hr|].
  destruct (many_text _ _ _ (resent_text (f_mime E) (encoded E) (f_compatibility_fixes E)) l Hl) as [c3 H3].
  assert (X : exists c1, clear_return (f_compatibility_fixes E) c1 p).
  { destruct p as [p|]; [|eexists; constructor]. destruct (path_text (f_compatibility_fixes E) p) as [c Hc]; [destruct p; exact Hp|]. eexists. constructor. apply header_text. exact Hc. }
  destruct X as [c1 H1]. eexists. econstructor; eauto.
Qed.
Lemma blocks_text : forall E ts, Forall (block_value (f_compatibility_fixes E)) ts -> parted ts -> exists c, clear_blocks E c (map trace_header ts).
Proof.
  intros E ts H P. induction P as [|t|p r l p' r' l' ts HP P IH].
  - exists []. constructor.
  - apply Forall_inv in H. destruct (block_text E t H) as [c Hc]. eexists. cbn [map]. econstructor; [exact Hc| |constructor]. destruct t as [[p r] l]. exact I.
  - apply Forall_inv in H as Ht. apply Forall_inv_tail in H. destruct (IH H) as [cs Hcs]. destruct (block_text E _ Ht) as [c Hc]. eexists. cbn [map]. econstructor; [exact Hc| |exact Hcs]. exact HP.
Qed.

(* ---- the headers of an email ---- *)
Definition known_headers (E : env) (e : email) : list field :=
  map FDate (opt_list (date_of e)) ++ map FFrom (if f_from E then [from e] else []) ++ map FSender (opt_list (sender e)) ++ map FReplyTo (opt_list (reply_to e)) ++
  map FTo (opt_list (to e)) ++ map FCc (opt_list (cc e)) ++ map FBcc (opt_list (bcc e)) ++ map FMessageId (opt_list (message_id_of e)) ++
  map FInReplyTo (opt_list (in_reply_to e)) ++ map FReferences (opt_list (references e)) ++ map FSubject (opt_list (subject e)) ++
  map FComments (comments e) ++ map FKeywords (match keywords e with [] => [] | k => [k] end).
Definition unknown_header (u : bytes * bytes) : field := FUnknown (fst u) (snd u).
(* the text of a header as written *)
Definition header_of (E : env) (c : bytes) (f : field) : Prop := clear_field E c f \/ exists u, unknown_value E u /\ c = unknown_line u /\ f = unknown_header u.
Lemma optional_text : forall A E (on : bool) (W : A -> Prop) (F : A -> field) o, optional_value on W o -> (forall a, on = true -> W a -> exists c, clear_field E c (F a)) ->
  Forall (fun f => exists c, clear_field E c f) (map F (opt_list o)).
Proof. intros A E on W F [a|] H HF; cbn; [|constructor]. destruct H. constructor; [auto|constructor]. Qed.
Ltac write L := let a := fresh "a" in let F := fresh "F" in let H := fresh "H" in let c := fresh "c" in let Hc := fresh "Hc" in
  intros a F H; edestruct L as [c Hc]; [exact H|]; eexists; constructor; [exact F|apply header_text; exact Hc].
Lemma known_text : forall E e, f_mime E = false -> mail_value E e -> Forall (fun f => exists c, clear_field E c f) (known_headers E e).
Proof.
  intros E e HM H. unfold known_headers. repeat (apply Forall_app; split).
  - pose proof (val_date E e H) as V. apply (optional_text _ E (f_date E) date_in_range); [destruct (f_date E); [destruct V as (d & -> & V); cbn; auto|rewrite V; exact I]|write date_text].
  - pose proof (val_from E e H) as V. destruct (f_from E) eqn:F; cbn; [|constructor]. constructor; [|constructor]. destruct (mailboxes_text (f_mime E) (encoded E) (f_compatibility_fixes E) _ V) as [c Hc].
    eexists. apply clear_from; [exact F|apply header_text; exact Hc].
  - pose proof (val_sender E e H) as V. apply (optional_text _ E (f_sender E) writable_mailbox); [destruct (f_sender E); [destruct V as (d & -> & V); cbn; auto|rewrite V; exact I]|write mailbox_text].
  - apply (optional_text _ E _ _ _ _ (val_reply_to E e H)). write recipients_text.
  - apply (optional_text _ E _ _ _ _ (val_to E e H)). write recipients_text.
  - apply (optional_text _ E _ _ _ _ (val_cc E e H)). write recipients_text.
  - apply (optional_text _ E _ _ _ _ (val_bcc E e H)). write bcc_text.
  - apply (optional_text _ E _ _ _ _ (val_message_id E e H)). write msg_id_text.
  - apply (optional_text _ E _ _ _ _ (val_in_reply_to E e H)). write msg_ids_text.
  - apply (optional_text _ E _ _ _ _ (val_references E e H)). write msg_ids_text.
  - apply (optional_text _ E _ _ _ _ (val_subject E e H)). intros a F Ha. eexists. apply clear_subject; [exact F|]. apply header_text. rewrite HM. exact (whole_text a Ha).
  - destruct (val_comments E e H) as [V N]. destruct (f_comments E) eqn:F; [|rewrite N by reflexivity; constructor]. apply Forall_map. eapply Forall_impl; [|exact V]. intros a Ha. eexists.
    apply clear_comments; [exact F|]. apply header_text. rewrite HM. exact (whole_text a Ha).
  - destruct (val_keywords E e H) as [V N]. destruct (f_keywords E) eqn:F; [|rewrite N by reflexivity; constructor]. destruct (keywords e) as [|k l] eqn:K; cbn; constructor; [|constructor].
    destruct (keywords_text (f_mime E) (encoded E) (k :: l)) as [c Hc]; [discriminate|exact V|]. eexists. apply clear_keywords_field; [exact F|]. apply header_text. exact Hc.
Qed.
Lemma headers_text : forall E e, f_mime E = false -> mail_value E e -> exists c, many_of (header_of E) c (known_headers E e ++ map unknown_header (unknown_fields e)).
Proof.
  intros E e HM H. apply (many_text _ _ (fun f => exists c, header_of E c f)); [auto|]. apply Forall_app. split.
  - eapply Forall_impl; [|exact (known_text E e HM H)]. intros f [c Hc]. exists c. now left.
  - apply Forall_map. eapply Forall_impl; [|exact (val_unknown E e H)]. intros u Hu. exists (unknown_line u). right. eauto.
Qed.
Lemma ends_no_blank : forall i, ends is_wsp i -> no_blank i.
Proof. intros i H c r -> W. cbn in H. apply wsp_spec in W. congruence. Qed.
Lemma header_of_starts : forall E c f i, header_of E c f -> starts_header (c ++ i).
Proof.
  intros E c f i [H|([n v] & (Hn & _) & -> & _)]; [eapply clear_field_starts; eauto|]. unfold unknown_line. cbn [fst snd] in *. exists n. eexists. rewrite <- !app_assoc. split; [reflexivity|exact Hn].
Qed.
Lemma header_of_read : forall E c f j, env_ok E -> f_mime E = false -> header_of E c f -> ends is_wsp j -> exists f', any_field E (c ++ j) = Ok (j, f') /\ f = f'.
Proof.
  intros E c f j HE HM [H|([n v] & Hu & -> & ->)] Hj.
  - destruct (any_field_forward E c f j (ok_hash E HE) H Hj) as (f' & X & S). exists f'. split; [exact X|]. destruct S; [reflexivity|..]; inversion H; congruence.
  - exists (FUnknown n v). split; [|reflexivity]. apply unknown_line_read; auto using ends_no_blank. destruct (f_unrecognized_headers E) eqn:U; [|reflexivity]. now rewrite (ok_unrecognized E HE U) in HM.
Qed.
Lemma headers_no_trace : forall E c l i, f_trace E = true -> many_of (header_of E) c l -> bare i ->
  (exists e, trace_block E (c ++ i) = Err e) /\ (exists e, resent_field E (c ++ i) = Err e) /\ (exists e, received E (c ++ i) = Err e).
Proof.
  intros E c l i HT H Hi. assert (N : forall i, no_trace i -> (exists e, trace_block E i = Err e) /\ (exists e, resent_field E i = Err e) /\ (exists e, received E i = Err e)).
  { intros j Hj. split; [now apply block_none|]. split; [apply resent_none; intros name Hn; apply Hj; cbn; tauto|apply received_none; apply Hj; in_list]. }
  destruct H as [|c f cs l H Hl]; [cbn [app]; now apply N, bare_no_trace|]. rewrite <- app_assoc. destruct H as [H|([n v] & Hu & -> & _)]; [eapply N, clear_field_no_trace; eauto|].
  apply unknown_line_trace; [exact Hu|]. apply ends_no_blank. eapply headers_start; [|now apply bare_wsp|exact Hl]. intros. eapply header_of_starts; eauto.
Qed.

(* ---- the email ---- *)
Lemma pick_hit : forall A B (sel : field -> option A) (F : B -> field) (g : B -> A) l, (forall b, sel (F b) = Some (g b)) -> pick sel (map F l) = map g l.
Proof. intros A B sel F g l H. unfold pick. rewrite map_map. induction l as [|b l IH]; [reflexivity|]. cbn [map concat]. rewrite H, IH. reflexivity. Qed.
Lemma pick_miss : forall A B (sel : field -> option A) (F : B -> field) l, (forall b, sel (F b) = None) -> pick sel (map F l) = [].
Proof. intros A B sel F l H. unfold pick. rewrite map_map. induction l as [|b l IH]; [reflexivity|]. cbn [map concat]. rewrite H. exact IH. Qed.
Ltac none := let b := fresh in intros b; solve [reflexivity|destruct b as [[? ?] ?]; reflexivity].
Ltac misses := repeat match goal with |- context [pick ?sel (map ?F ?l)] => rewrite (pick_miss _ _ sel F l) by none end; rewrite ?app_nil_r, ?app_nil_l.
Ltac picks g := unfold known_headers; rewrite !pick_app; misses; rewrite (pick_hit _ _ _ _ g) by (let b := fresh in intros b; first [reflexivity|destruct b as [[? ?] ?]; reflexivity|destruct b; reflexivity]); rewrite ?map_id.
Definition email_headers (E : env) (e : email) : list field := map trace_header (trace_of e) ++ known_headers E e ++ map unknown_header (unknown_fields e).
Lemma only_opt : forall A (sel : field -> option A) E e o, pick sel (email_headers E e) = opt_list o -> only sel (email_headers E e) = o.
Proof. intros A sel E e [a|] H; unfold only; now rewrite H. Qed.
Lemma pieces_nodup : forall (names : list string) pieces, Forall2 (fun n p => p = [] \/ p = [n]) names pieces -> NoDup names -> NoDup (concat pieces).
Proof.
  assert (G : forall (names : list string) pieces, Forall2 (fun n p => p = [] \/ p = [n]) names pieces -> forall x, In x (concat pieces) -> In x names).
  { intros names pieces H. induction H as [|n p names pieces Hp _ IH]; intros x Hx; [exact Hx|]. cbn [concat] in Hx. apply in_app_or in Hx as [Hx|Hx]; [|right; auto]. destruct Hp as [-> | ->]; [destruct Hx|]. destruct Hx as [<-|[]]. now left. }
  intros names pieces H. induction H as [|n p names pieces Hp HP IH]; intros N; [constructor|]. inversion N; subst. cbn [concat]. destruct Hp as [-> | ->]; cbn [app]; auto. constructor; [|auto]. intros X. eapply G in X; eauto.
Qed.
Lemma constant_piece : forall B (F : B -> field) n o, (forall b, singular (F b) = Some n) -> pick singular (map F (opt_list o)) = [] \/ pick singular (map F (opt_list o)) = [n].
Proof. intros B F n [b|] H; [right|left; reflexivity]. rewrite (pick_hit _ _ singular F (fun _ => n)) by exact H. reflexivity. Qed.
Lemma headers_email : forall E e, f_mime E = false -> mail_value E e -> email_of E (email_headers E e) (body_of e) e.
Proof.
  intros E e HM H. assert (EO : forall A (o : option A), map (fun x => x) (opt_list o) = opt_list o) by (intros A []; reflexivity). constructor.
  - unfold email_headers, known_headers. rewrite !pick_app. misses.
    match goal with |- NoDup (?a ++ ?b ++ ?c ++ ?d ++ ?e ++ ?f ++ ?g ++ ?h ++ ?i ++ ?j ++ ?k) => rewrite <- (app_nil_r k); change (NoDup (concat [a; b; c; d; e; f; g; h; i; j; k])) end.
    eapply pieces_nodup with (names := ["Date"; "From"; "Sender"; "Reply-To"; "To"; "Cc"; "Bcc"; "Message-ID"; "In-Reply-To"; "References"; "Subject"]%string).
    + repeat apply Forall2_cons; [apply constant_piece; reflexivity|destruct (f_from E); [right|left]; reflexivity|apply constant_piece; reflexivity..|apply Forall2_nil].
    + repeat (apply NoDup_cons; [cbn; intuition discriminate|]). apply NoDup_nil.
  - pose proof (val_from E e H) as V. destruct (f_from E) eqn:F; [|exact V]. unfold email_headers, only. picks (fun x : list mailbox_t => x). rewrite F. reflexivity.
  - pose proof (val_date E e H) as V. destruct (f_date E); [|exact V]. destruct V as (d & V & _). split; [|congruence]. apply only_opt. unfold email_headers. picks (fun x : date_time_t => x). reflexivity.
  - pose proof (val_sender E e H) as V. destruct (f_sender E); [|exact V]. destruct V as (m & V & _). split; [|congruence]. replace (only is_sender (email_headers E e)) with (sender e); [rewrite V; reflexivity|].
    symmetry. apply only_opt. unfold email_headers. picks (fun x : mailbox_t => x). reflexivity.
  - symmetry. apply only_opt. unfold email_headers. picks (fun x : bytes => x). reflexivity.
  - symmetry. apply only_opt. unfold email_headers. picks (fun x : list address_t => x). reflexivity.
  - symmetry. apply only_opt. unfold email_headers. picks (fun x : list address_t => x). reflexivity.
  - symmetry. apply only_opt. unfold email_headers. picks (fun x : list address_t => x). reflexivity.
  - symmetry. apply only_opt. unfold email_headers. picks (fun x : bytes * bytes => x). reflexivity.
  - symmetry. apply only_opt. unfold email_headers. picks (fun x : list (bytes * bytes) => x). reflexivity.
  - symmetry. apply only_opt. unfold email_headers. picks (fun x : list (bytes * bytes) => x). reflexivity.
  - symmetry. apply only_opt. unfold email_headers. picks (fun x : list address_t => x). reflexivity.
  - unfold email_headers. picks (fun x : bytes => x). reflexivity.
  - unfold email_headers. picks (fun x : list (list bytes) => x). destruct (keywords e); [reflexivity|]. cbn [concat]. now rewrite app_nil_r.
  - unfold email_headers. picks (fun x : block => x). reflexivity.
  - unfold email_headers. picks (fun x : bytes * bytes => x). reflexivity.
  - rewrite HM. reflexivity.
  - rewrite HM. exact (val_mime E e H).
Qed.
Theorem mail_written : forall E e, env_ok E -> f_mime E = false -> mail_value E e -> exists data, parse E data = Ok e.
Proof.
  intros E e HE HM H. destruct (headers_text E e HM H) as [c2 H2]. destruct (val_trace E e H) as (T1 & T2 & T3). destruct (blocks_text E (trace_of e) T1 T2) as [c1 H1].
  set (rest := match body_of e with Some b => CRLF ++ b | None => [] end). assert (HR : bare rest) by (unfold rest; destruct (body_of e); [right; eauto|now left]).
  exists (c1 ++ c2 ++ rest). apply (parse_iff_email E _ (email_headers E e) (body_of e) e HE); [|now apply headers_email].
  destruct (headers_steps _ _ (header_of E) (any_field E) eq rest) with (c := c2) (l := known_headers E e ++ map unknown_header (unknown_fields e)) as (l' & S & R);
    [intros c0 a j Ha Hj; now apply header_of_read|intros; eapply header_of_starts; eauto|now apply bare_wsp|now apply any_field_bare|exact H2|]. apply forall2_eq in R. subst l'.
  assert (W : ends is_wsp (c2 ++ rest)) by (eapply headers_start; [|now apply bare_wsp|exact H2]; intros; eapply header_of_starts; eauto).
  assert (X : fields E (c1 ++ c2 ++ rest) = Ok (rest, email_headers E e)).
  { unfold fields. destruct (f_trace E) eqn:T.
    - destruct (headers_no_trace E c2 _ rest T H2 HR) as (N1 & N2 & N3). rewrite (many_steps _ _ _ _ _ (blocks_until E c1 _ H1 (c2 ++ rest) W N1 N2 N3)). cbn [bind]. rewrite (many_steps _ _ _ _ _ S). reflexivity.
    - unfold email_headers. rewrite (T3 eq_refl) in *. cbn [map] in H1. inversion H1; subst. cbn [app bind map]. rewrite (many_steps _ _ _ _ _ S). reflexivity. }
  unfold parse_message. rewrite X. cbn [bind]. rewrite HM. pose proof (val_body E e H) as B. pose proof (body_outcome rest) as O. unfold rest in O |- *. destruct (body_of e) as [b|].
  - cbn in B. destruct B as [_ B]. destruct (body (CRLF ++ b)) as [[b'|]|er|k]; cbn [bind]; [|discriminate|..|destruct O].
    + destruct O as [O _]. apply app_inv_head in O. now subst b'.
    + exfalso. destruct O as [(_ & _ & O)|(_ & b' & O & N)]; [rewrite starts_with_app in O; discriminate O|]. apply app_inv_head in O. now subst b'.
  - destruct (body []) as [[b'|]|er|k]; cbn [bind]; [destruct O; discriminate|reflexivity|exfalso; destruct O as [(_ & O & _)|(_ & b' & O & _)]; [congruence|discriminate]|destruct O].
Qed.
Theorem mail_values : forall E e, env_ok E -> f_mime E = false -> (exists data, parse E data = Ok e) <-> mail_value E e.
Proof. intros E e HE HM. split; [intros [data H]; eapply mail_range; eauto|now apply mail_written]. Qed.

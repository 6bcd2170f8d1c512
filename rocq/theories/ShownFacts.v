(* C58: the headers of an accepted mail are shown by the email, wherever they stand. *)
From Coq Require Import Lia ZifyBool ZifyNat ZifyN Permutation.
From Verif Require Import Base Utf8 CharSets Combinators Whitespace QuotedString Common Time Address Percent MimeFields Fields Message Entity Email Envs
  Rfc5322 Rfc2047 Post CodecSpec RfcFields SoundBase SoundTime SoundAddr TagNoCase ParamSpec ParamProofs SoundFields EmailSpec SoundMessage EmailProofs MessageFacts Steps Complete CompleteFields Forward ForwardText
  ForwardFields ForwardMessage HeaderFacts LocalSpec Local LocalFacts RecaseFacts KeptFacts LinedFacts LessFacts RangeFacts LineSpec LineFacts ShownSpec.
From Verif Require ExactFacts.
Local Open Scope N_scope.

Lemma without_no_trace : forall i, (forall name, In name tracing -> without name i) -> ~ starts_trace i.
Proof.
  intros i H (name & n & r & Hn & Hs & ->). specialize (H name Hn). unfold without in H. rewrite app_assoc in H. rewrite starts_nocase_app in H; [discriminate|].
  unfold same_nocase in *. etransitivity; [apply map_app|]. etransitivity; [|symmetry; apply map_app]. now f_equal.
Qed.
Ltac each_trace H := let name := fresh "name" in let Hn := fresh "Hn" in
  apply without_no_trace; intros name Hn; cbn in Hn; repeat (destruct Hn as [<-|Hn]; [other H|]); destruct Hn.
Lemma clear_no_trace : forall E c f i, clear_field E c f -> f_trace E = true -> ~ starts_trace (c ++ i).
Proof.
  intros E c f i H HT. destruct H as [c v Hf H|c v Hf H|c v Hf H|c v Hf H|c v Hf H|c v Hf H|c v Hf H|c v Hf H|c v Hf H|c v Hf H|c v Hf H|c v Hf H|c v Hf H
     |c x y Hf H|c t s p Hf H|c v Hf H|c v Hf H|c v Hf H|c v Hf H|c n v H]; [each_trace H..|].
  inversion H as [n0 c0 v0 Hn Hu Hv]; subst. intros (name & m & r & Hi & Hm & X). rewrite <- !app_assoc in X. change (bs ":") with [58] in X. cbn [app] in X.
  apply colon_unique in X as [-> _]; [|now apply ftext_no_colon|eapply fold_nocolon; [exact Hm|now apply tracing_no_colon]].
  apply (Hu name); [|exact Hm]. unfold known_names. rewrite HT. cbn [when]. repeat (apply in_or_app; right). exact Hi.
Qed.
Lemma any_field_new_line : forall E j r f, env_ok E -> any_field E j = Ok (r, f) -> new_line j.
Proof. intros E j r f HE H c t -> W. pose proof (ExactFacts.any_field_on E _ _ _ HE H) as X. exact (X c t eq_refl W). Qed.

(* ---- the field of a header somewhere in a mail ---- *)
Ltac kindly := let f := fresh in let x := fresh in let X := fresh in intros f x X; destruct f; try discriminate X; reflexivity.
Lemma member_only : forall E l1 f l2 b e, email_of E (l1 ++ f :: l2) b e -> forall A (sel : field -> option A) n a, (forall f x, sel f = Some x -> singular f = Some n) -> sel f = Some a -> only sel (l1 ++ f :: l2) = Some a.
Proof.
  intros E l1 f l2 b e H A sel n a Hs Hf. pose proof (pick_unique A sel n _ (of_unique _ _ _ _ H) Hs) as P. rewrite pick_app, pick_cons, Hf in P. cbn [opt_list app] in P.
  destruct (only sel (l1 ++ f :: l2)) as [x|]; cbn [opt_list] in P; [|destruct (pick sel l1); discriminate]. destruct (pick sel l1) as [|y [|z l]]; cbn [app] in P; [injection P as -> _; reflexivity|discriminate|discriminate].
Qed.
Lemma member_shown : forall E l1 f l2 b e c, email_of E (l1 ++ f :: l2) b e -> field_text E c f -> is_trace f = None -> shown f e.
Proof.
  intros E l1 f l2 b e c H Ht Hx.
  pose proof (member_only E l1 f l2 b e H) as O.
  assert (P : forall A (sel : field -> option A) a, sel f = Some a -> exists p q, pick sel (l1 ++ f :: l2) = p ++ a :: q).
  { intros A sel a Hf. rewrite pick_app, pick_cons, Hf. cbn [opt_list app]. eauto. }
  assert (M : f_mime E = true -> exists v, mime_entity e = Some {| e_mime_type := fst (fst (type_of (only is_content_type (l1 ++ f :: l2)))); e_subtype := snd (fst (type_of (only is_content_type (l1 ++ f :: l2))));
        e_description := only is_content_description (l1 ++ f :: l2); e_id := only is_content_id (l1 ++ f :: l2); e_parameters := snd (type_of (only is_content_type (l1 ++ f :: l2)));
        e_disposition := only is_content_disposition (l1 ++ f :: l2); e_value := v; e_additional_headers := [] |}).
  { intros X. pose proof (of_mime _ _ _ _ H) as Y. rewrite X in Y. destruct Y as (v & _ & Y). eauto. }
  destruct Ht; cbn [shown]; try discriminate Hx.
  - pose proof (of_date _ _ _ _ H) as X. rewrite H0 in X. destruct X as [X _]. rewrite <- X. eapply O; [kindly|reflexivity].
  - pose proof (of_from _ _ _ _ H) as X. rewrite H0 in X. rewrite (O _ is_from "From"%string l) in X; [now injection X|kindly|reflexivity].
  - pose proof (of_sender _ _ _ _ H) as X. rewrite H0 in X. destruct X as [X _]. rewrite (O _ is_sender "Sender"%string m) in X; [exact X|kindly|reflexivity].
  - rewrite (of_reply_to _ _ _ _ H). eapply O; [kindly|reflexivity].
  - rewrite (of_to _ _ _ _ H). eapply O; [kindly|reflexivity].
  - rewrite (of_cc _ _ _ _ H). eapply O; [kindly|reflexivity].
  - rewrite (of_bcc _ _ _ _ H). eapply O; [kindly|reflexivity].
  - rewrite (of_message_id _ _ _ _ H). eapply O; [kindly|reflexivity].
  - rewrite (of_in_reply_to _ _ _ _ H). eapply O; [kindly|reflexivity].
  - rewrite (of_references _ _ _ _ H). eapply O; [kindly|reflexivity].
  - rewrite (of_subject _ _ _ _ H). eapply O; [kindly|reflexivity].
  - rewrite (of_comments _ _ _ _ H). destruct (P _ is_comments s eq_refl) as (p & q & ->). apply in_or_app. right. now left.
  - rewrite (of_keywords _ _ _ _ H). destruct (P _ is_keywords l eq_refl) as (p & q & ->). exists (concat p), (concat q). rewrite concat_app. reflexivity.
  - exact I.
  - destruct (M H0) as (v & ->). eexists. split; [reflexivity|]. cbn [e_mime_type e_subtype e_parameters]. rewrite (O _ is_content_type "Content-Type"%string (t, s, p)); [|kindly|reflexivity]. cbn. repeat split.
  - exact I.
  - destruct (M H0) as (v & ->). eexists. split; [reflexivity|]. cbn [e_id]. eapply O; [kindly|reflexivity].
  - destruct (M H0) as (v & ->). eexists. split; [reflexivity|]. cbn [e_description]. eapply O; [kindly|reflexivity].
  - destruct (M H0) as (v & ->). do 2 eexists. split; [reflexivity|]. cbn [e_disposition]. split; [eapply O; [kindly|reflexivity]|]. destruct d. constructor. intros n. reflexivity.
  - rewrite (of_unknown _ _ _ _ H). destruct (P _ is_unknown (n, v) eq_refl) as (p & q & ->). apply in_or_app. right. now left.
Qed.
Section Somewhere.
Variables (E : env) (pre : list line) (c post : bytes) (f : field).
Hypothesis HE : env_ok E.
Hypothesis Hpre : Forall proper_line pre.
Hypothesis Hc : any_field E (c ++ post) = Ok (post, f).
Hypothesis HT : f_trace E = true -> ~ starts_trace (c ++ post).
Lemma somewhere : forall fs b, parse_message E (block_text pre ++ c ++ post) = Ok (fs, b) <->
  exists l1 r l2, fs = l1 ++ f :: l2 /\ parse_message E (block_text pre) = Ok (l1, None) /\ steps (any_field E) post l2 r /\ bare r /\ rest_text r b /\ (f_mime E = false -> forall x, b = Some x -> body_text x).
Proof.
  intros fs b. rewrite message_split; [|exact HE|exact Hpre|exact (any_field_new_line E _ _ _ HE Hc)|exact HT].
  assert (HT' : f_trace E = true -> no_trace (c ++ post)) by (intros X; apply no_starts_trace; auto). split.
  - intros (l1 & l2 & -> & H1 & H2). apply message_ok in H2 as (r & H2 & Hr & Hb & Ht). apply fields_of_steps in H2; [|exact HE|exact HT'].
    inversion H2 as [i e X|i r1 a l' r' X L Hs]; subst; [congruence|]. rewrite Hc in X. inversion X; subst. eauto 10.
  - intros (l1 & r & l2 & -> & H1 & H2 & Hr & Hb & Ht). exists l1, (f :: l2). split; [reflexivity|]. split; [exact H1|]. apply message_ok. exists r. split; [|auto].
    apply fields_of_steps; [exact HE|exact HT'|]. eapply steps_more; [exact Hc|exact (progress_any_field E HE _ _ _ Hc)|exact H2].
Qed.
Lemma field_shown : forall e, parse E (block_text pre ++ c ++ post) = Ok e -> shown f e.
Proof.
  intros e H. destruct (parse_ok_message _ _ _ H) as (fs & b & M). apply (parse_iff_email E _ fs b e HE M) in H. apply somewhere in M as (l1 & r & l2 & -> & _ & _).
  destruct (any_field_sound E _ _ _ HE Hc) as (c' & _ & Ht). eapply member_shown; eauto. eapply any_field_not_trace; eauto.
Qed.
End Somewhere.

(* ---- regular headers ---- *)
Theorem clear_shown : forall E pre c f post e, env_ok E -> Forall proper_line pre -> clear_field E c f -> new_line post ->
  parse E (block_text pre ++ c ++ post) = Ok e -> shown f e.
Proof.
  intros E pre c f post e HE Hp Hc Hn H. destruct (any_field_forward E c f post (ok_hash E HE) Hc (new_line_ends _ Hn)) as (f' & F & S).
  assert (X : shown f' e) by (eapply field_shown; eauto; intros T; eapply clear_no_trace; eauto).
  destruct S as [f|t s l l' S|k fn c' m r l l' S]; [exact X|..]; cbn [shown] in *.
  - destruct X as (r & X1 & X2 & X3 & X4). exists r. split; [exact X1|]. split; [exact X2|]. split; [exact X3|]. intros n. rewrite S. apply X4.
  - destruct X as (r' & d' & X1 & X2 & X3). exists r', d'. split; [exact X1|]. split; [exact X2|]. inversion X3; subst. constructor. intros n. etransitivity; [apply S|]. auto.
Qed.
(* the body after the headers *)
Lemma body_after : forall E h b fs b', env_ok E -> hlines h -> parse_message E (h ++ CRLF ++ b) = Ok (fs, b') -> b' = Some b.
Proof.
  intros E h b fs b' HE Hh M. apply message_ok in M as (r & M & Br & Rb & _).
  assert (B : bare (CRLF ++ b)) by (right; eauto).
  assert (W : ends is_wsp (CRLF ++ b)) by reflexivity.
  destruct (fields_edit E h (CRLF ++ b) (CRLF ++ b) r fs HE Hh W W) as (l1 & l2 & _ & S & _); [intros _; split; now apply bare_no_trace|exact M|exact Br|].
  destruct (any_field_bare E _ B) as [x X]. inversion S as [i y Y|i r1 a l r' Y]; subst; [|congruence]. inversion Rb; subst. reflexivity.
Qed.
Theorem clear_decoded : forall E pre c enc ls b e, env_ok E -> f_mime E = true -> Forall proper_line pre -> clear_field E c (FContentTransferEncoding enc) -> Forall proper_line ls ->
  parse E (block_text pre ++ c ++ block_text ls ++ CRLF ++ b) = Ok e -> exists r, mime_entity e = Some r /\ transfer_decoded enc b (e_value r).
Proof.
  intros E pre c enc ls b e HE HM Hp Hc Hl H.
  assert (Nb : new_line (CRLF ++ b)) by (intros x r X; injection X as <- _; unfold rfc_WSP; lia).
  assert (Nl : new_line (block_text ls ++ CRLF ++ b)) by now apply block_new_line.
  destruct (any_field_forward E c _ (block_text ls ++ CRLF ++ b) (ok_hash E HE) Hc (new_line_ends _ Nl)) as (f' & F & S). inversion S; subst f'. clear S.
  assert (TT : f_trace E = true -> ~ starts_trace (c ++ block_text ls ++ CRLF ++ b)) by (intros T; eapply clear_no_trace; eauto).
  destruct (parse_ok_message _ _ _ H) as (fs & b' & M). apply (parse_iff_email E _ fs b' e HE M) in H.
  assert (b' = Some b) as ->.
  { assert (L : hlines (block_text pre ++ c ++ block_text ls)).
    { apply hlines_app; [now apply proper_hlines|]. apply hlines_app; [|now apply proper_hlines]. destruct (any_field_sound E _ _ _ HE F) as (c' & X & Ht). apply app_inv_tail in X as ->. eapply field_hlines; eauto. }
    eapply body_after; [exact HE|exact L|]. rewrite <- !app_assoc. exact M. }
  apply (somewhere E pre c _ _ HE Hp F TT) in M as (l1 & r & l2 & -> & _).
  pose proof (of_mime _ _ _ _ H) as Y. rewrite HM in Y. destruct Y as (v & Y & Z). eexists. split; [exact Z|]. cbn [e_value].
  rewrite (member_only E l1 (FContentTransferEncoding enc) l2 _ e H _ is_cte "Content-Transfer-Encoding"%string enc) in Y; [exact Y|kindly|reflexivity].
Qed.

(* ---- headers that come and go ---- *)
Lemma pick_around : forall A (sel : field -> option A) l1 f l2, sel f = None -> pick sel (l1 ++ f :: l2) = pick sel (l1 ++ l2).
Proof. intros A sel l1 f l2 H. now rewrite !pick_app, pick_cons, H. Qed.
Lemma only_around : forall A (sel : field -> option A) l1 f l2, sel f = None -> only sel (l1 ++ f :: l2) = only sel (l1 ++ l2).
Proof. intros A sel l1 f l2 H. unfold only. now rewrite pick_around. Qed.
Lemma not_there : forall A (sel : field -> option A) fs g a, only sel fs = None -> In g fs -> sel g = Some a -> False.
Proof. intros A sel fs g a H Hi Hs. apply only_none in H. rewrite pick_nil in H. rewrite (H g Hi) in Hs. discriminate. Qed.
Lemma addable_new : forall E fs b e f, email_of E fs b e -> addable f e -> forall n, singular f = Some n -> ~ In n (pick singular fs).
Proof.
  intros E fs b e f H Ha n Hn Hi. apply SoundMessage.in_pick in Hi as (g & Hg & Hs).
  destruct f; try contradiction Ha; try discriminate Hn; cbn [addable] in Ha; injection Hn as <-; destruct g; try discriminate Hs.
  all: first [rewrite (of_subject _ _ _ _ H) in Ha; exact (not_there _ is_subject _ _ _ Ha Hg eq_refl)|rewrite (of_to _ _ _ _ H) in Ha; exact (not_there _ is_to _ _ _ Ha Hg eq_refl)|rewrite (of_cc _ _ _ _ H) in Ha; exact (not_there _ is_cc _ _ _ Ha Hg eq_refl)|rewrite (of_bcc _ _ _ _ H) in Ha; exact (not_there _ is_bcc _ _ _ Ha Hg eq_refl)|rewrite (of_message_id _ _ _ _ H) in Ha; exact (not_there _ is_message_id _ _ _ Ha Hg eq_refl)|rewrite (of_in_reply_to _ _ _ _ H) in Ha; exact (not_there _ is_in_reply_to _ _ _ Ha Hg eq_refl)|rewrite (of_references _ _ _ _ H) in Ha; exact (not_there _ is_references _ _ _ Ha Hg eq_refl)|rewrite (of_reply_to _ _ _ _ H) in Ha; exact (not_there _ is_reply_to _ _ _ Ha Hg eq_refl)].
Qed.
Lemma unique_around : forall l1 f l2, (forall n, singular f = Some n -> ~ In n (pick singular (l1 ++ l2))) -> NoDup (pick singular (l1 ++ l2)) -> NoDup (pick singular (l1 ++ f :: l2)).
Proof.
  intros l1 f l2 Hn H. rewrite pick_app, pick_cons in *. destruct (singular f) as [n|]; cbn [opt_list app]; [|exact H].
  eapply Permutation_NoDup; [apply Permutation_middle|]. constructor; [now apply Hn|exact H].
Qed.
Lemma around_unique : forall l1 f l2, NoDup (pick singular (l1 ++ f :: l2)) -> NoDup (pick singular (l1 ++ l2)).
Proof. intros l1 f l2 H. rewrite pick_app, pick_cons in *. destruct (singular f) as [n|]; cbn [opt_list app] in H; [|exact H]. now apply NoDup_remove_1 in H. Qed.
(* the email of some headers, one of which can be left out *)
Definition remade (fs : list field) (e : email) : email :=
  {| body_of := body_of e; from := from e; sender := sender e; subject := only is_subject fs; date_of := date_of e; to := only is_to fs; cc := only is_cc fs; bcc := only is_bcc fs;
     message_id_of := only is_message_id fs; in_reply_to := only is_in_reply_to fs; references := only is_references fs; reply_to := only is_reply_to fs;
     comments := pick is_comments fs; keywords := concat (pick is_keywords fs); trace_of := trace_of e; mime_entity := mime_entity e; unknown_fields := pick is_unknown fs |}.
Lemma remade_of : forall E fs fs' b e, email_of E fs b e -> NoDup (pick singular fs') -> only is_from fs' = only is_from fs -> only is_sender fs' = only is_sender fs -> only is_date fs' = only is_date fs ->
  pick is_trace fs' = pick is_trace fs -> only is_cte fs' = only is_cte fs -> only is_content_type fs' = only is_content_type fs -> only is_content_description fs' = only is_content_description fs ->
  only is_content_id fs' = only is_content_id fs -> only is_content_disposition fs' = only is_content_disposition fs -> email_of E fs' b (remade fs' e).
Proof.
  intros E fs fs' b e H Hu H1 H2 H3 H4 H5 H6 H7 H8 H9. constructor; cbn [remade body_of from sender subject date_of to cc bcc message_id_of in_reply_to references reply_to comments keywords trace_of mime_entity unknown_fields];
    rewrite ?H1, ?H2, ?H3, ?H4, ?H5, ?H6, ?H7, ?H8, ?H9; try reflexivity.
  - exact Hu.
  - exact (of_from _ _ _ _ H).
  - exact (of_date _ _ _ _ H).
  - exact (of_sender _ _ _ _ H).
  - exact (of_trace _ _ _ _ H).
  - exact (of_body _ _ _ _ H).
  - exact (of_mime _ _ _ _ H).
Qed.
Lemma removable_other : forall f, removable f -> is_from f = None /\ is_sender f = None /\ is_date f = None /\ is_trace f = None /\ is_cte f = None /\ is_content_type f = None /\ is_content_description f = None /\
  is_content_id f = None /\ is_content_disposition f = None.
Proof. intros f H. destruct f; try contradiction H; repeat split. Qed.
Lemma addable_removable : forall f e, addable f e -> removable f. Proof. intros f e H. destruct f; try contradiction H; exact I. Qed.
Lemma only_added : forall A (sel : field -> option A) l1 f l2, (sel f <> None -> only sel (l1 ++ l2) = None) -> added (sel f) (only sel (l1 ++ l2)) (only sel (l1 ++ f :: l2)).
Proof.
  intros A sel l1 f l2 H. unfold added. destruct (sel f) as [a|] eqn:F; [|now apply only_around]. assert (X : only sel (l1 ++ l2) = None) by now apply H. split; [exact X|].
  apply only_none in X. unfold only. rewrite pick_app in *. apply app_eq_nil in X as [-> _]. rewrite pick_cons, F. reflexivity.
Qed.
Lemma picked : forall A (sel : field -> option A) l1 f l2, inserted (opt_list (sel f)) (pick sel (l1 ++ l2)) (pick sel (l1 ++ f :: l2)).
Proof. intros A sel l1 f l2. exists (pick sel l1), (pick sel l2). rewrite !pick_app, pick_cons. auto. Qed.
Lemma remade_grown : forall E l1 f l2 b e e', email_of E (l1 ++ l2) b e -> email_of E (l1 ++ f :: l2) b e' ->
  body_of e' = body_of e -> from e' = from e -> sender e' = sender e -> date_of e' = date_of e -> trace_of e' = trace_of e -> mime_entity e' = mime_entity e -> grown f e e'.
Proof.
  intros E l1 f l2 b e e' H H' E1 E2 E3 E4 E5 E6.
  assert (O : forall A (sel : field -> option A) n, (forall g x, sel g = Some x -> singular g = Some n) -> added (sel f) (only sel (l1 ++ l2)) (only sel (l1 ++ f :: l2))).
  { intros A sel n Hs. apply only_added. intros Hf. destruct (sel f) as [a|] eqn:F; [|congruence]. pose proof (pick_unique A sel n _ (of_unique _ _ _ _ H') Hs) as P. rewrite pick_app, pick_cons, F in P. cbn [opt_list app] in P.
    rewrite only_none, pick_app. destruct (only sel (l1 ++ f :: l2)) as [x|]; cbn [opt_list] in P; [|destruct (pick sel l1); discriminate].
    destruct (pick sel l1) as [|y [|z l]]; cbn [app] in *; [now injection P|discriminate|discriminate]. }
  constructor; auto.
  - rewrite (of_subject _ _ _ _ H), (of_subject _ _ _ _ H'). eapply O. kindly.
  - rewrite (of_to _ _ _ _ H), (of_to _ _ _ _ H'). eapply O. kindly.
  - rewrite (of_cc _ _ _ _ H), (of_cc _ _ _ _ H'). eapply O. kindly.
  - rewrite (of_bcc _ _ _ _ H), (of_bcc _ _ _ _ H'). eapply O. kindly.
  - rewrite (of_message_id _ _ _ _ H), (of_message_id _ _ _ _ H'). eapply O. kindly.
  - rewrite (of_in_reply_to _ _ _ _ H), (of_in_reply_to _ _ _ _ H'). eapply O. kindly.
  - rewrite (of_references _ _ _ _ H), (of_references _ _ _ _ H'). eapply O. kindly.
  - rewrite (of_reply_to _ _ _ _ H), (of_reply_to _ _ _ _ H'). eapply O. kindly.
  - rewrite (of_comments _ _ _ _ H), (of_comments _ _ _ _ H'). apply picked.
  - rewrite (of_keywords _ _ _ _ H), (of_keywords _ _ _ _ H'). destruct (picked _ is_keywords l1 f l2) as (a1 & a2 & -> & ->). exists (concat a1), (concat a2). rewrite !concat_app. split; [reflexivity|]. f_equal. f_equal.
    destruct (is_keywords f); cbn [opt_list concat]; [apply app_nil_r|reflexivity].
  - rewrite (of_unknown _ _ _ _ H), (of_unknown _ _ _ _ H'). apply picked.
Qed.
Lemma grown_email : forall E l1 f l2 b e, email_of E (l1 ++ l2) b e -> addable f e -> exists e', email_of E (l1 ++ f :: l2) b e' /\ grown f e e'.
Proof.
  intros E l1 f l2 b e H Ha. destruct (removable_other f (addable_removable f e Ha)) as (A1 & A2 & A3 & A4 & A5 & A6 & A7 & A8 & A9).
  assert (H' : email_of E (l1 ++ f :: l2) b (remade (l1 ++ f :: l2) e)).
  { apply (remade_of E (l1 ++ l2)); [exact H|apply unique_around; [exact (addable_new E _ b e f H Ha)|exact (of_unique _ _ _ _ H)]|..]; try (now apply only_around). now apply pick_around. }
  eexists. split; [exact H'|]. now apply (remade_grown E l1 f l2 b).
Qed.
Lemma shrunk_email : forall E l1 f l2 b e', email_of E (l1 ++ f :: l2) b e' -> removable f -> exists e, email_of E (l1 ++ l2) b e /\ grown f e e'.
Proof.
  intros E l1 f l2 b e H Ha. destruct (removable_other f Ha) as (A1 & A2 & A3 & A4 & A5 & A6 & A7 & A8 & A9).
  assert (H' : email_of E (l1 ++ l2) b (remade (l1 ++ l2) e)).
  { apply (remade_of E (l1 ++ f :: l2)); [exact H|eapply around_unique; exact (of_unique _ _ _ _ H)|..]; try (symmetry; now apply only_around). symmetry. now apply pick_around. }
  eexists. split; [exact H'|]. now apply (remade_grown E l1 f l2 b).
Qed.
Lemma clear_same_removable : forall f f', same_field f f' -> removable f -> f' = f.
Proof. intros f f' S H. destruct S; [reflexivity|contradiction H..]. Qed.
Section ComeAndGo.
Variables (E : env) (pre : list line) (c post : bytes) (f : field).
Hypothesis HE : env_ok E.
Hypothesis Hpre : Forall proper_line pre.
Hypothesis Hc : clear_field E c f.
Hypothesis Hpost : new_line post.
Hypothesis HT : f_trace E = true -> ~ starts_trace post.
Lemma around_message : removable f -> forall l1 l2 b, parse_message E (block_text pre) = Ok (l1, None) ->
  (parse_message E (block_text pre ++ c ++ post) = Ok (l1 ++ f :: l2, b) <-> parse_message E post = Ok (l2, b)).
Proof.
  intros Hr l1 l2 b H1. destruct (any_field_forward E c f post (ok_hash E HE) Hc (new_line_ends _ Hpost)) as (f' & F & S). apply clear_same_removable in S as ->; [|exact Hr].
  assert (TT : f_trace E = true -> ~ starts_trace (c ++ post)) by (intros T; eapply clear_no_trace; eauto).
  assert (HT' : f_trace E = true -> no_trace post) by (intros X; apply no_starts_trace; auto).
  rewrite (somewhere E pre c post f HE Hpre F TT). split.
  - intros (k1 & r & k2 & X & H1' & Hs & Br & Rb & Hb). rewrite H1 in H1'. injection H1' as <-. apply app_inv_head in X. injection X as <-. apply message_ok. exists r. split; [now apply fields_of_steps|auto].
  - intros M. apply message_ok in M as (r & M & Br & Rb & Hb). apply fields_of_steps in M; [|exact HE|exact HT']. eauto 10.
Qed.
Theorem clear_added : forall e, addable f e -> parse E (block_text pre ++ post) = Ok e -> exists e', parse E (block_text pre ++ c ++ post) = Ok e' /\ grown f e e'.
Proof.
  intros e Ha H. pose proof (addable_removable f e Ha) as Hr. destruct (parse_ok_message _ _ _ H) as (fs & b & M). apply (parse_iff_email E _ fs b e HE M) in H. apply message_split in M as (l1 & l2 & -> & M1 & M2); auto.
  destruct (grown_email E l1 f l2 b e H Ha) as (e' & H' & G). exists e'. split; [|exact G]. apply (around_message Hr l1 l2 b M1) in M2. now apply (parse_iff_email E _ _ _ _ HE M2).
Qed.
Theorem clear_removed : forall e', removable f -> parse E (block_text pre ++ c ++ post) = Ok e' -> exists e, parse E (block_text pre ++ post) = Ok e /\ grown f e e'.
Proof.
  intros e' Hr H. destruct (parse_ok_message _ _ _ H) as (fs & b & M). apply (parse_iff_email E _ fs b e' HE M) in H.
  destruct (any_field_forward E c f post (ok_hash E HE) Hc (new_line_ends _ Hpost)) as (f' & F & S). apply clear_same_removable in S as ->; [|exact Hr].
  assert (TT : f_trace E = true -> ~ starts_trace (c ++ post)) by (intros T; eapply clear_no_trace; eauto). pose proof M as M0.
  apply (somewhere E pre c post f HE Hpre F TT) in M as (l1 & r & l2 & -> & M1 & _). apply (around_message Hr l1 l2 b M1) in M0.
  destruct (shrunk_email E l1 f l2 b e' H Hr) as (e & H' & G). exists e. split; [|exact G].
  assert (M : parse_message E (block_text pre ++ post) = Ok (l1 ++ l2, b)) by (apply message_split; eauto). now apply (parse_iff_email E _ _ _ _ HE M).
Qed.
End ComeAndGo.

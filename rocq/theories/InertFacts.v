(* C72: a malformed header changes nothing but the unknown headers; a malformed Sender header. *)
From Coq Require Import Lia.
From Verif Require Import Base Utf8 CharSets Time Address MimeFields Fields Message Entity Email Envs Rfc5322 Rfc2047 Post CodecSpec RfcFields SoundFields EmailSpec SoundMessage EmailProofs MessageFacts Steps
  Complete CompleteFields Forward ForwardText ForwardFields ForwardMessage HeaderFacts LocalSpec Local LocalFacts RecaseFacts Writers WriteFacts LineSpec LineFacts KeptFacts ShownSpec ShownFacts ShownWriters ObsoleteSpec ObsoleteFacts InertSpec.
Local Open Scope N_scope.

Theorem malformed_added : forall E pre n c v post e, env_ok E -> debug E = false \/ f_mime E = false -> Forall proper_line pre -> new_line post -> (f_trace E = true -> ~ starts_trace post) ->
  chars1 rfc_ftext n -> (f_trace E = true -> forall name, In name tracing -> ~ same_nocase n (bs name)) -> (f_unrecognized_headers E = true -> no_encoded c) -> unfolded c v -> malformed E (n ++ bs ":" ++ c ++ CRLF) ->
  parse E (block_text pre ++ post) = Ok e ->
  exists u1 u2, unknown_fields e = u1 ++ u2 /\ parse E (block_text pre ++ n ++ bs ":" ++ c ++ CRLF ++ post) = Ok (with_unknown e (u1 ++ (n, v) :: u2)).
Proof.
  intros E pre n c v post e HE HD Hp Hi HT Hn Nt Ne Hv Hm H. destruct (parse_ok_message _ _ _ H) as (fs & b & M). apply (parse_iff_email E _ fs b e HE M) in H. apply message_split in M as (l1 & l2 & -> & M1 & M2); auto.
  apply message_ok in M2 as (r & M2 & Br & Rb & Hb). apply fields_of_steps in M2; [|exact HE|intros X; apply no_starts_trace; auto].
  assert (X : parse_message E (block_text pre ++ (n ++ bs ":" ++ c ++ CRLF) ++ post) = Ok (l1 ++ FUnknown n v :: l2, b)).
  { apply (somewhere E pre (n ++ bs ":" ++ c ++ CRLF) post (FUnknown n v) HE Hp).
    - change (bs ":") with [58]. rewrite <- !app_assoc. apply malformed_any; auto; [now apply text_value_written|now apply new_line_ends].
    - intros T (name & m & q & In1 & Hs & Eq). rewrite <- !app_assoc in Eq. change (bs ":") with [58] in Eq. cbn [app] in Eq.
      apply colon_unique in Eq as [-> _]; [exact (Nt T name In1 Hs)|now apply ftext_no_colon|]. eapply fold_nocolon; [exact Hs|now apply tracing_no_colon].
    - exists l1, r, l2. auto 10. }
  rewrite <- !app_assoc in X. exists (pick is_unknown l1), (pick is_unknown l2). split; [rewrite (of_unknown _ _ _ _ H); apply pick_app|].
  apply (parse_iff_email E _ _ _ _ HE X). pose proof (alike_email E _ _ b e (proj1 (alike_unknown l1 l2 n v)) H) as Y. now rewrite pick_app, pick_cons in Y.
Qed.

(* ---- a Sender header without "@" ---- *)
Lemma mailbox_has_at : forall compat EW c m, rfc_mailbox compat EW c m -> In 64 c.
Proof. intros compat EW c m H. eapply from_has_at. apply comma_one. exact H. Qed.
Definition senderless_names : list string :=
  ["From"; "Date"; "Reply-To"; "To"; "Cc"; "Bcc"; "Message-ID"; "In-Reply-To"; "References"; "Subject"; "Comments"; "Keywords"; "MIME-Version"; "Content-Type";
   "Content-Transfer-Encoding"; "Content-ID"; "Content-Description"; "Content-Disposition"; "Return-Path"; "Received"; "Resent-Date"; "Resent-From"; "Resent-Sender";
   "Resent-To"; "Resent-Cc"; "Resent-Bcc"; "Resent-Message-ID"]%string.
Lemma structured_sender : forall E x, structured_line E x -> (exists m, rfc_header "Sender" (rfc_mailbox (f_compatibility_fixes E) (encoded E)) x m) \/
  exists name n r, In name senderless_names /\ x = n ++ [58] ++ r /\ same_nocase n (bs name).
Proof.
  intros E x H. assert (G : forall A name (V : bytes -> A -> Prop) x v y, rfc_header name V x v -> In name senderless_names -> exists name n r, In name senderless_names /\ x ++ y = n ++ [58] ++ r /\ same_nocase n (bs name)).
  { intros A name V z v y Hh Hi. apply header_named in Hh as (n & r & -> & Hn). exists name, n, (r ++ y). now rewrite <- !app_assoc. }
  assert (G' : forall A name (V : bytes -> A -> Prop) x v, rfc_header name V x v -> In name senderless_names -> exists name n r, In name senderless_names /\ x = n ++ [58] ++ r /\ same_nocase n (bs name)).
  { intros A name V z v Hh Hi. rewrite <- (app_nil_r z). eapply G; eauto. }
  destruct H as [f H U|v _ H|v _ H|v _ H].
  - destruct H; try (right; eapply G'; [eassumption|unfold senderless_names; cbn; tauto]); [left; eauto| |discriminate].
    right. destruct H0 as [|c1 p H0].
    + destruct H2 as [|z a zs l0 H2 _]; [congruence|]. cbn [app]. rewrite <- app_assoc. eapply G; [exact H2|]. unfold senderless_names; cbn; tauto.
    + eapply G; [exact H0|]. unfold senderless_names; cbn; tauto.
  - right. eapply G'; [eassumption|unfold senderless_names; cbn; tauto].
  - right. eapply G'; [eassumption|unfold senderless_names; cbn; tauto].
  - right. destruct H; eapply G'; try eassumption; unfold senderless_names; cbn; tauto.
Qed.
Theorem sender_malformed : forall E n c, same_nocase n (bs "Sender") -> ~ In 64 c -> malformed E (n ++ bs ":" ++ c ++ CRLF).
Proof.
  intros E n c Hn Hc x y Hx Hs. change (bs ":") with [58] in Hx. assert (Nc : ~ In 58 n) by (eapply fold_nocolon; [exact Hn|no_colon]). apply structured_sender in Hs as [[l H]|(name & m & r & Hi & -> & Hm)].
  - destruct H as [m c' l Hm Hl]. apply mailbox_has_at in Hl. rewrite <- app_assoc in Hx. cbn [app] in Hx. apply colon_unique in Hx as [-> Hx]; auto; [|eapply fold_nocolon; [exact Hm|no_colon]].
    assert (I : In 64 (c ++ CRLF)). { unfold bytes, byte in *. rewrite Hx. apply in_or_app. left. apply in_or_app. now left. }
    apply in_app_or in I as [I|I]; [now apply Hc|]. cbn in I. lia.
  - rewrite <- app_assoc in Hx. cbn [app] in Hx.
    assert (Nm : ~ In 58 m). { apply (fold_nocolon m (bs name) Hm). unfold senderless_names in Hi. cbn [In] in Hi. repeat destruct Hi as [<-|Hi]; try no_colon. contradiction. }
    apply colon_unique in Hx as [-> _]; auto. revert Hm. unfold senderless_names in Hi. cbn [In] in Hi. repeat destruct Hi as [<-|Hi]; try (eapply nocase_differs; [exact Hn|reflexivity]). contradiction.
Qed.
Lemma sender_ftext : forall n, same_nocase n (bs "Sender") -> chars1 rfc_ftext n.
Proof. intros n Hn. apply (nocase_ftext_eq (bs "Sender")); [now apply nocase_sym|]. split; [discriminate|]. apply Forall_forall. intros x Hx. vm_compute in Hx. unfold rfc_ftext. lia. Qed.
Lemma one_picked : forall A (sel : field -> option A) l1 f l2 s a, sel f = Some a -> pick sel (l1 ++ f :: l2) = [s] -> pick sel (l1 ++ l2) = [] /\ s = a.
Proof.
  intros A sel l1 f l2 s a F P. rewrite pick_app, pick_cons, F in P. cbn [opt_list app] in P. rewrite pick_app. destruct (pick sel l1) as [|x q]; cbn [app] in *; [injection P as P1 P2; auto|]. injection P as _ P. destruct q; discriminate P.
Qed.
Section Sender.
Variables (E : env) (pre : list line) (g n c v post : bytes) (m : mailbox_t) (e : email).
Hypothesis HE : env_ok E.
Hypothesis HD : debug E = false \/ f_mime E = false.
Hypothesis Hp : Forall proper_line pre.
Hypothesis Hi : new_line post.
Hypothesis HF : f_sender E = true.
Hypothesis Hg : clear_field E g (FSender m).
Hypothesis Hn : same_nocase n (bs "Sender").
Hypothesis Hc : ~ In 64 c.
Hypothesis Ne : f_unrecognized_headers E = true -> no_encoded c.
Hypothesis Hv : unfolded c v.
Hypothesis H : parse E (block_text pre ++ g ++ post) = Ok e.
Lemma sender_swap : exists l1 l2 b, email_of E (l1 ++ FSender m :: l2) b e /\ parse_message E (block_text pre ++ n ++ bs ":" ++ c ++ CRLF ++ post) = Ok (l1 ++ FUnknown n v :: l2, b) /\ pick is_sender (l1 ++ l2) = [] /\ pick is_from (l1 ++ l2) = [from e].
Proof.
  destruct (parse_ok_message _ _ _ H) as (fs & b & M). pose proof (mandatory E _ fs b e HE M H) as (M1 & _ & M3). pose proof H as H'. apply (parse_iff_email E _ fs b e HE M) in H'.
  destruct (replaced E pre g n c v post (FSender m) HE HD Hp Hg) with (fs := fs) (b := b) as (l1 & l2 & -> & X); auto using sender_ftext.
  - intros f' S. now inversion S.
  - now apply text_value_written.
  - now apply sender_malformed.
  - rewrite <- !app_assoc. apply (name_no_trace "Sender"); [exact Hn|no_colon|]. unfold tracing. repeat (apply Forall_cons; [reflexivity|]). apply Forall_nil.
  - rewrite <- !app_assoc in X. exists l1, l2, b. split; [exact H'|]. split; [exact X|]. split.
    + destruct (M3 HF) as (s & _ & [P|[P _]]); [exact (proj1 (one_picked _ is_sender l1 (FSender m) l2 s m eq_refl P))|]. rewrite pick_app, pick_cons in P. apply app_eq_nil in P as [_ P]. discriminate P.
    + specialize (M1 (ok_sender E HE HF)). now rewrite pick_around in M1 by reflexivity.
Qed.
Theorem sender_assumed : forall a, from e = [a] ->
  exists u1 u2, unknown_fields e = u1 ++ u2 /\ parse E (block_text pre ++ n ++ bs ":" ++ c ++ CRLF ++ post) = Ok (with_sender e (Some a) (u1 ++ (n, v) :: u2)).
Proof.
  intros a Ha. destruct sender_swap as (l1 & l2 & b & O & X & S & F). exists (pick is_unknown l1), (pick is_unknown l2). split; [rewrite (of_unknown _ _ _ _ O), pick_around, pick_app; reflexivity|].
  assert (A : forall A (sel : field -> option A), sel (FSender m) = None -> sel (FUnknown n v) = None -> only sel (l1 ++ FUnknown n v :: l2) = only sel (l1 ++ FSender m :: l2)) by (intros; now rewrite !only_around).
  assert (B : forall A (sel : field -> option A), sel (FSender m) = None -> sel (FUnknown n v) = None -> pick sel (l1 ++ FUnknown n v :: l2) = pick sel (l1 ++ FSender m :: l2)) by (intros; now rewrite !pick_around).
  apply (parse_iff_email E _ _ _ _ HE X). destruct O as [O1 O2 O3 O4 O5 O6 O7 O8 O9 O10 O11 O12 O13 O14 O15 O16 O17 O18].
  constructor; cbn [with_sender from sender subject date_of to cc bcc message_id_of in_reply_to references reply_to comments keywords trace_of mime_entity body_of unknown_fields];
    rewrite ?(A _ is_from), ?(A _ is_date), ?(A _ is_subject), ?(A _ is_to), ?(A _ is_cc), ?(A _ is_bcc), ?(A _ is_message_id), ?(A _ is_in_reply_to), ?(A _ is_references), ?(A _ is_reply_to), ?(B _ is_comments), ?(B _ is_keywords), ?(B _ is_trace),
      ?(A _ is_cte), ?(A _ is_content_type), ?(A _ is_content_description), ?(A _ is_content_id), ?(A _ is_content_disposition) by reflexivity; try assumption.
  - rewrite pick_around by reflexivity. now apply around_unique in O1.
  - rewrite HF. assert (Y : only is_sender (l1 ++ FUnknown n v :: l2) = None) by (unfold only; rewrite pick_around by reflexivity; now rewrite S). rewrite Y, Ha. split; [reflexivity|discriminate].
  - now rewrite pick_app, pick_cons.
Qed.
Theorem sender_missed : length (from e) <> 1%nat -> parse E (block_text pre ++ n ++ bs ":" ++ c ++ CRLF ++ post) = Err (MissingHeader "Sender").
Proof.
  intros L. destruct sender_swap as (l1 & l2 & b & O & X & S & F). apply (missing_sender E _ (l1 ++ FUnknown n v :: l2) b (from e) HE X); auto.
  - rewrite pick_around by reflexivity. exact (around_unique l1 (FSender m) l2 (of_unique _ _ _ _ O)).
  - now rewrite pick_around.
  - now rewrite pick_around.
  - intros D. pose proof (of_date _ _ _ _ O) as Q. rewrite D in Q. destruct Q as [Q1 Q2]. rewrite only_around in Q1 by reflexivity. rewrite pick_around by reflexivity. intros Z. unfold only in Q1. rewrite Z in Q1. now apply Q2.
Qed.
End Sender.
(* a second Date header that is not read does not count as a repetition *)
Theorem second_date : forall E pre n c v post e, env_ok E -> debug E = false \/ f_mime E = false -> Forall proper_line pre -> new_line post -> (f_trace E = true -> ~ starts_trace post) ->
  same_nocase n (bs "Date") -> undated c -> (f_unrecognized_headers E = true -> no_encoded c) -> unfolded c v -> parse E (block_text pre ++ post) = Ok e ->
  exists u1 u2, unknown_fields e = u1 ++ u2 /\ parse E (block_text pre ++ n ++ bs ":" ++ c ++ CRLF ++ post) = Ok (with_unknown e (u1 ++ (n, v) :: u2)).
Proof.
  intros E pre n c v post e HE HD Hp Hi HT Hn Hc Ne Hv H. eapply malformed_added; eauto.
  - apply (nocase_ftext_eq (bs "Date")); [now apply nocase_sym|]. split; [discriminate|]. apply Forall_forall. intros x Hx. vm_compute in Hx. unfold rfc_ftext. lia.
  - intros _ name I. unfold tracing in I. cbn [In] in I. repeat destruct I as [<-|I]; try (eapply nocase_differs; [exact Hn|reflexivity]). contradiction.
  - now apply date_malformed.
Qed.
(* an optional header that becomes malformed is lost, and nothing else *)
Theorem optional_lost : forall E pre g f n c v post e, env_ok E -> debug E = false \/ f_mime E = false -> Forall proper_line pre -> new_line post -> (f_trace E = true -> ~ starts_trace post) ->
  clear_field E g f -> removable f -> chars1 rfc_ftext n -> (f_trace E = true -> forall name, In name tracing -> ~ same_nocase n (bs name)) -> (f_unrecognized_headers E = true -> no_encoded c) -> unfolded c v -> malformed E (n ++ bs ":" ++ c ++ CRLF) ->
  parse E (block_text pre ++ g ++ post) = Ok e ->
  exists e0 u1 u2, grown f e0 e /\ unknown_fields e0 = u1 ++ u2 /\ parse E (block_text pre ++ n ++ bs ":" ++ c ++ CRLF ++ post) = Ok (with_unknown e0 (u1 ++ (n, v) :: u2)).
Proof.
  intros E pre g f n c v post e HE HD Hp Hi HT Hg Hr Hn Nt Ne Hv Hm H. destruct (clear_removed E pre g post f HE Hp Hg Hi HT e Hr H) as (e0 & H0 & G).
  destruct (malformed_added E pre n c v post e0 HE HD Hp Hi HT Hn Nt Ne Hv Hm H0) as (u1 & u2 & U & P). eauto 6.
Qed.

(* ---- identifiers without "@" ---- *)
Lemma id_has_at : forall compat c i, rfc_msg_id compat c i -> In 64 c.
Proof. intros compat c i []. apply in_or_app. right. apply in_or_app. right. apply in_or_app. right. now left. Qed.
Lemma ids_have_at : forall compat c l, rfc_msg_ids compat c l -> In 64 c.
Proof. intros compat c l [N H]. destruct H as [|x i y l Hx _]; [congruence|]. apply in_or_app. left. eapply id_has_at; eauto. Qed.
Definition idless : list string :=
  ["From"; "Date"; "Sender"; "Reply-To"; "To"; "Cc"; "Bcc"; "Subject"; "Comments"; "Keywords"; "MIME-Version"; "Content-Type";
   "Content-Transfer-Encoding"; "Content-Description"; "Content-Disposition"; "Return-Path"; "Received"; "Resent-Date"; "Resent-From"; "Resent-Sender";
   "Resent-To"; "Resent-Cc"; "Resent-Bcc"; "Resent-Message-ID"]%string.
Lemma structured_id : forall E x, structured_line E x -> exists name n r, x = n ++ [58] ++ r /\ same_nocase n (bs name) /\ (In name identifying /\ In 64 r \/ In name idless).
Proof.
  intros E x H.
  assert (G : forall A name (V : bytes -> A -> Prop) x v y, rfc_header name V x v -> In name idless -> exists name n r, x ++ y = n ++ [58] ++ r /\ same_nocase n (bs name) /\ (In name identifying /\ In 64 r \/ In name idless)).
  { intros A name V z v y Hh Hi. apply header_named in Hh as (n & r & -> & Hn). exists name, n, (r ++ y). rewrite <- !app_assoc. auto. }
  assert (G' : forall A name (V : bytes -> A -> Prop) x v, rfc_header name V x v -> In name idless -> exists name n r, x = n ++ [58] ++ r /\ same_nocase n (bs name) /\ (In name identifying /\ In 64 r \/ In name idless)).
  { intros A name V z v Hh Hi. rewrite <- (app_nil_r z). eapply G; eauto. }
  assert (K : forall A name (V : bytes -> A -> Prop) x v, (forall c a, V c a -> In 64 c) -> rfc_header name V x v -> In name identifying -> exists name n r, x = n ++ [58] ++ r /\ same_nocase n (bs name) /\ (In name identifying /\ In 64 r \/ In name idless)).
  { intros A name V z v HV Hh Hi. destruct Hh as [n c a Hn Hc]. exists name, n, (c ++ CRLF). split; [reflexivity|]. split; [exact Hn|]. left. split; [exact Hi|]. apply in_or_app. left. eauto. }
  destruct H as [f H U|v _ H|v _ H|v _ H].
  - destruct H; try (eapply G'; [eassumption|unfold idless; cbn; tauto]);
      try (eapply K; [|eassumption|unfold identifying; cbn; tauto]; intros; first [eapply id_has_at; eassumption|eapply ids_have_at; eassumption]); [|discriminate].
    destruct H0 as [|c1 p H0].
    + destruct H2 as [|z a zs l0 H2 _]; [congruence|]. cbn [app]. rewrite <- app_assoc. eapply G; [exact H2|]. unfold idless; cbn; tauto.
    + eapply G; [exact H0|]. unfold idless; cbn; tauto.
  - eapply G'; [eassumption|unfold idless; cbn; tauto].
  - eapply G'; [eassumption|unfold idless; cbn; tauto].
  - destruct H; eapply G'; try eassumption; unfold idless; cbn; tauto.
Qed.
Theorem id_malformed : forall E name n c, In name identifying -> same_nocase n (bs name) -> ~ In 64 c -> malformed E (n ++ bs ":" ++ c ++ CRLF).
Proof.
  intros E name n c HI Hn Hc x y Hx Hs. change (bs ":") with [58] in Hx.
  assert (Nc : ~ In 58 n). { apply (fold_nocolon n (bs name) Hn). unfold identifying in HI. cbn [In] in HI. repeat destruct HI as [<-|HI]; try no_colon. contradiction. }
  apply structured_id in Hs as (name' & m & r & -> & Hm & Hi). rewrite <- app_assoc in Hx. cbn [app] in Hx.
  assert (Nm : ~ In 58 m). { apply (fold_nocolon m (bs name') Hm). destruct Hi as [[Hi _]|Hi]; [unfold identifying in Hi|unfold idless in Hi]; cbn [In] in Hi; repeat destruct Hi as [<-|Hi]; try no_colon; contradiction. }
  apply colon_unique in Hx as [-> Hx]; auto. destruct Hi as [[_ Hr]|Hi].
  - assert (I : In 64 (c ++ CRLF)). { unfold bytes, byte in *. rewrite Hx. apply in_or_app. now left. }
    apply in_app_or in I as [I|I]; [now apply Hc|]. cbn in I. lia.
  - revert Hm. unfold identifying in HI. cbn [In] in HI. unfold idless in Hi. cbn [In] in Hi.
    repeat destruct HI as [<-|HI]; try contradiction; (repeat destruct Hi as [<-|Hi]; try (eapply nocase_differs; [exact Hn|reflexivity]); contradiction).
Qed.

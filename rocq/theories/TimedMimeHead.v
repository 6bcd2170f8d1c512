(* The work of the headers with mime, for mails shorter than a bound. *)
From Coq Require Import Lia ZifyBool ZifyNat ZifyN.
From Verif Require Import Base Utf8 CharSets Combinators Whitespace QuotedString EncodedWord Common Time Address MimeFields Fields Message Entity Email Envs Rfc5322 Post TagNoCase Timed TimedErase TimedCodec TimedCodecFacts TimedMime TimedMimeErase TimedFacts TimedWords TimedAddr TimedBox TimedVals TimedHead TimedMail TimedMimeFacts TimedMimeBox TimedMimeParam.
Local Open Scope nat_scope.

Definition bhead {A} (L C : nat) (size : A -> nat) (p : timed_parser A) : Prop := forall i, length i < L ->
  spec (fun r a n => lined i r /\ size a <= 2 * length i /\ n <= C * S (reach i)) (fun n => n <= C * S (reach i)) (p i) /\ (begins is_wsp i -> nope (p i)).
(* work D for each byte, whatever the mail of length less than L *)
Definition bheaded {A} (D : nat -> nat) (size : A -> nat) (p : env -> timed_parser A) : Prop := exists C, forall E L, cost_env E -> bhead L (C * D L) size (p E).
Definition bheads {A} (D : nat -> nat) (size : A -> nat) (ps : env -> list (timed_parser A)) : Prop := bheaded D size (fun E => t_match_parsers (ps E)).
Definition degree (w D : nat -> nat) : Prop := forall L x, x < L -> w x <= D L * S x.
Definition rates (D : nat -> nat) : Prop := forall L, 1 <= L -> 1 <= D L.
Definition d2 (L : nat) : nat := L.
Definition d3 (L : nat) : nat := L * L.
Lemma degree2 : degree w2 d2.
Proof. intros L x H. unfold w2, d2. apply Nat.mul_le_mono_r. lia. Qed.
Lemma degree3 : degree w3 d3.
Proof. intros L x H. unfold w3, d3. rewrite <- Nat.mul_assoc. apply Nat.mul_le_mono; [lia|]. apply Nat.mul_le_mono_r. lia. Qed.
Lemma rates2 : rates d2.
Proof. intros L H. exact H. Qed.
Lemma rates3 : rates d3.
Proof. intros L H. unfold d3. assert (1 * 1 <= L * L) by (apply Nat.mul_le_mono; lia). lia. Qed.
Global Hint Resolve degree2 degree3 rates2 rates3 : core.
Lemma bhead_more : forall A L C C' size (p : timed_parser A), bhead L C size p -> C <= C' -> bhead L C' size p.
Proof.
  intros A L C C' size p H Q i Hi. destruct (H i Hi) as [H1 H2]. split; [|exact H2]. pose proof (Nat.mul_le_mono_r C C' (S (reach i)) Q). eapply spec_weak; [exact H1| |]; cbn beta; [intros r a n (X & Y & Z); split; [exact X|]; split; [exact Y|lia]|intros; lia].
Qed.
Lemma bheaded_plain : forall A D size (p : env -> timed_parser A), rates D -> headed size p -> bheaded D size p.
Proof.
  intros A D size p HD [C H]. exists C. intros E L _ i Hi. destruct (H E i) as [H1 H2]. split; [|exact H2]. specialize (HD L ltac:(lia)).
  assert (Q : C * 1 <= C * D L) by (apply mono; exact HD). rewrite Nat.mul_1_r in Q. pose proof (Nat.mul_le_mono_r _ _ (S (reach i)) Q). eapply spec_weak; [exact H1| |]; cbn beta; [intros r a n (X & Y & Z); split; [exact X|]; split; [exact Y|lia]|intros; lia].
Qed.
Lemma bheaded_pmap : forall A B D size size' (f : A -> B) (p : env -> timed_parser A), bheaded D size p -> (forall a, size' (f a) <= size a) -> bheaded D size' (fun E => t_pmap f (p E)).
Proof.
  intros A B D size size' f p [C H] Q. exists C. intros E L HE i Hi. destruct (H E L HE i Hi) as [H1 H2]. unfold t_pmap. split; [|intros W; apply nope_bind, H2, W].
  eapply spec_bind; [exact H1|auto|]. cbn beta. intros r a n (X & Y & Z). apply spec_ok. specialize (Q a). split; [exact X|]. split; [lia|lia].
Qed.
Lemma bheaded_header : forall A D w e1 e2 m (v : env -> timed_parser A) m' size, rates D -> degree w D -> nocase_pair (bs e1) (bs e2) = true -> name_ok (bs e1) = true -> kept w v -> (forall E i, cost_env E -> sized size i (v E i)) ->
  bheaded D size (fun E => t_header E e1 e2 m (v E) m').
Proof.
  intros A D w e1 e2 m v m' size HD Hd N1 N2 [c Hv] Hs. exists (S (length (bs e1) + length (bs e2)) + c + 3). intros E L HE i Hi. destruct (s_name E (bs e1) (bs e2) m i N1 N2) as [T1 T2]. unfold t_header. split; [|intros W; apply nope_bind, T2, W].
  set (T := S (length (bs e1) + length (bs e2))) in *. assert (DL : 1 <= D L) by (apply HD; lia). pose proof (reach_length i) as Ri. assert (R : forall x n, x <= reach i -> n <= T + c * w x + 3 -> n <= (T + c + 3) * D L * S (reach i)).
  { intros x n X Y. pose proof (Hd L x ltac:(lia)) as Hd'. assert (D L * S x <= D L * S (reach i)) by (apply mono; lia). assert (Z : w x <= D L * S (reach i)) by lia. pose proof (mono c _ _ Z).
    assert (O : 1 <= D L * S (reach i)) by (assert (1 * 1 <= D L * S (reach i)) by (apply Nat.mul_le_mono; lia); lia). rewrite <- Nat.mul_assoc. set (z := D L * S (reach i)) in *. clearbody z. pose proof (mono (T + 3) _ _ O). lia. }
  eapply spec_bind; [exact T1|cbn beta; intros n ->; apply (R 0); lia|]. cbn beta. intros j [] n [A1 ->]. eapply spec_bind; [eapply spec_and; [apply (Hv E j HE)|apply (Hs E j HE)]|cbn beta; intros n [H _]; apply (R (reach j)); [ah|lia]|]. cbn beta.
  intros r a n ((H1 & H2) & H3). eapply spec_bind; [apply s_tag|cbn beta; intros q [-> _]; cbn [CRLF length]; apply (R (reach j)); [ah|lia]|]. cbn beta. intros r' [] q [-> ->]. apply spec_ok. cbn [CRLF length].
  split; [eapply lined_crlf; [|reflexivity]; ah|]. split; [ah|]. apply (R (reach j)); [ah|]. lia.
Qed.
Lemma bheaded_resent : forall A D m size (p : env -> timed_parser A), rates D -> bheaded D size p -> bheaded D size (fun E => t_resent E m (p E)).
Proof.
  intros A D m size p HD [C H]. exists (C + 20). intros E L HE i Hi. unfold t_resent. destruct (s_name E (bs "Resent-") (bs "rESENT-") m i eq_refl eq_refl) as [T1 T2]. split; [|intros W; apply nope_bind, T2, W]. specialize (HD L ltac:(lia)).
  assert (O : 1 <= D L * S (reach i)) by (assert (1 * 1 <= D L * S (reach i)) by (apply Nat.mul_le_mono; lia); lia). rewrite Nat.mul_add_distr_r, Nat.mul_add_distr_r, <- !Nat.mul_assoc.
  change (S (length (bs "Resent-") + length (bs "rESENT-"))) with 15 in T1. eapply spec_bind; [exact T1|cbn beta; intros n ->; lia|]. cbn beta. intros j [] n [A1 ->]. destruct (H E L HE j ltac:(ah)) as [H1 _]. rewrite <- Nat.mul_assoc in H1.
  assert (Q : D L * S (reach j) <= D L * S (reach i)) by (apply mono; ah). pose proof (mono C _ _ Q). set (z := D L * S (reach i)) in *. set (y := D L * S (reach j)) in *. clearbody y z.
  eapply spec_weak; [exact H1| |]; cbn beta; [|intros; lia]. intros r a n (X & Y & Z). split; [eapply lined_ahead; eassumption|]. split; [ah|lia].
Qed.
Lemma bheads_nil : forall A D (size : A -> nat), bheads D size (fun _ => []).
Proof. intros A D size. exists 0. intros E L _ i _. cbn. split; [lia|auto]. Qed.
Lemma bhead_cons : forall A L C C' size (p : timed_parser A) ps, bhead L C size p -> bhead L C' size (t_match_parsers ps) -> bhead L (C + C') size (t_match_parsers (p :: ps)).
Proof.
  intros A L C C' size p ps H1 H2 i Hi. destruct (H1 i Hi) as [P1 P2]. destruct (H2 i Hi) as [Q1 Q2]. cbn [t_match_parsers]. split.
  - eapply spec_attempt; [exact P1| |]; cbn beta.
    + intros r a n (X & Y & Z). apply spec_ok. split; [exact X|]. split; [exact Y|lia].
    + intros n N. eapply spec_weak; [exact Q1| |]; cbn beta; [intros r a m (X & Y & Z); split; [exact X|]; split; [exact Y|lia]|intros; lia].
  - intros W. specialize (P2 W). specialize (Q2 W). destruct (p i) as [[[r a]|e|c] n]; cbn in *; [contradiction| |exact I]. destruct (t_match_parsers ps i) as [[[r a]|e'|c] m]; cbn in *; auto.
Qed.
Lemma bheads_cons : forall A D (size : A -> nat) p ps, bheaded D size p -> bheads D size ps -> bheads D size (fun E => p E :: ps E).
Proof. intros A D size p ps [C H1] [C' H2]. exists (C + C'). intros E L HE. rewrite Nat.mul_add_distr_r. apply bhead_cons; [now apply H1|now apply H2]. Qed.
Lemma bheads_cfg : forall A D (size : A -> nat) (b : env -> bool) p ps, bheaded D size p -> bheads D size ps -> bheads D size (fun E => t_cfg (b E) (p E) ++ ps E).
Proof.
  intros A D size b p ps H1 H2. destruct H1 as [C H1]. destruct H2 as [C' H2]. exists (C + C'). intros E L HE. unfold t_cfg. destruct (b E); [rewrite Nat.mul_add_distr_r; apply bhead_cons; [now apply H1|now apply H2]|]. cbn [app]. eapply bhead_more; [apply H2; exact HE|apply Nat.mul_le_mono_r; lia].
Qed.

(* ---- the headers ---- *)
Ltac bh3 := apply (bheaded_header _ d3 w3); [auto|auto|reflexivity|reflexivity| |intros; apply sized_zero].
Ltac bh2 := apply (bheaded_header _ d2 w2); [auto|auto|reflexivity|reflexivity| |intros; apply sized_zero].
Definition third_box (l : list mailbox_t) : nat := one_box l / 11.
Lemma b_from : bheaded d3 third_box m_field_from.
Proof.
  apply (bheaded_header _ d3 w3); [auto|auto|reflexivity|reflexivity|apply kept_within, win_mailbox_list|]. intros E i [_ HE]. unfold m_mailbox_list.
  eapply spec_bind; [apply m_mailbox_cost; exact HE|auto|]. cbn beta. intros r a n (_ & _ & H & _). eapply spec_bind; [apply (spec_true _ _ (fun _ _ _ => True) (fun _ => True)); auto|auto|]. intros r' l k _. apply spec_ok. unfold third_box.
  destruct l as [|b l]; cbn [one_box]; [|cbn; lia]. apply Nat.div_le_upper_bound; lia.
Qed.
Lemma b_from0 : bheaded d3 (fun _ => 0) m_field_from.
Proof. bh3. apply kept_within, win_mailbox_list. Qed.
Lemma b_sender : bheaded d3 (fun _ => 0) m_field_sender.
Proof. bh3. apply kept_within, win_mailbox. Qed.
Lemma b_reply_to : bheaded d3 (fun _ => 0) m_field_reply_to.
Proof. bh3. apply kept_within, win_address_list. Qed.
Lemma b_to : bheaded d3 (fun _ => 0) m_field_to.
Proof. bh3. apply kept_within, win_address_list. Qed.
Lemma b_cc : bheaded d3 (fun _ => 0) m_field_cc.
Proof. bh3. apply kept_within, win_address_list. Qed.
Lemma b_bcc : bheaded d3 (fun _ => 0) m_field_bcc.
Proof. bh3. apply kept_within, win_bcc. Qed.
Lemma b_subject : bheaded d3 (fun _ => 0) m_field_subject.
Proof. bh3. apply kept_within, within_up, win_text2. Qed.
Lemma b_comments : bheaded d3 (fun _ => 0) m_field_comments.
Proof. bh3. apply kept_within, within_up, win_text2. Qed.
Lemma b_keywords : bheaded d3 (fun _ => 0) m_field_keywords.
Proof. bh3. apply kept_within, win_keywords. Qed.
Lemma b_version : bheaded d3 (fun _ => 0) m_mime_version.
Proof. apply (bheaded_header _ d3 w3 _ _ _ (fun _ => m_version_value)); [auto|auto|reflexivity|reflexivity| |intros; apply sized_zero]. apply kept_upto; [auto|]. exists 500, 500. intros _. exact upto_version. Qed.
Lemma b_type : bheaded d2 (fun _ => 0) m_content_type.
Proof. bh2. exact win_content_type. Qed.
Lemma b_encoding : bheaded d2 (fun _ => 0) m_content_transfer_encoding.
Proof. bh2. apply kept_upto; [auto|exact upto_encoding]. Qed.
Lemma b_id : bheaded d2 (fun _ => 0) m_content_id.
Proof. bh2. apply kept_upto; [auto|]. do 2 eexists. intros. apply upto_message_id. Qed.
Lemma b_description : bheaded d2 (fun _ => 0) m_content_description.
Proof. bh2. apply kept_within, win_text2. Qed.
Lemma b_disposition : bheaded d2 (fun _ => 0) m_content_disposition.
Proof. bh2. exact win_disposition. Qed.
Lemma b_unknown : bheaded d2 (fun _ => 0) m_unknown.
Proof.
  assert (V : kept w2 (fun E => if f_unrecognized_headers E then m_unstructured E else t_unstructured)).
  { destruct win_text2 as [c H]. exists (c + 400). intros E i [_ HE]. destruct (f_unrecognized_headers E); [eapply win_weak; [apply H; exact HE|lia]|]. eapply win_weak; [eapply win_upto; [auto|apply upto_text]|lia]. }
  destruct V as [c V]. exists (c + 10). intros E L HE i Hi. unfold m_unknown. change (bs ":") with [58%N]. pose proof (reach_length i) as Ri. unfold d2. assert (M : S (reach i) <= L * S (reach i)) by (assert (1 * S (reach i) <= L * S (reach i)) by (apply Nat.mul_le_mono_r; lia); lia).
  assert (R : forall x n, x <= reach i -> n <= 2 * reach i + c * w2 x + 10 -> n <= (c + 10) * L * S (reach i)).
  { intros x n X Y. assert (Z : w2 x <= L * S (reach i)) by (unfold w2; apply Nat.mul_le_mono; lia). pose proof (mono c _ _ Z). rewrite <- Nat.mul_assoc. set (z := L * S (reach i)) in *. clearbody z. lia. }
  split.
  - eapply spec_bind; [apply s_take_while1; exact ftext_plain|cbn beta; intros n [-> _]; apply (R 0); lia|]. cbn beta. intros j name n (H1 & _ & H2 & _ & -> & _). eapply spec_bind; [apply s_char; lia|cbn beta; intros n ->; apply (R 0); ah|]. cbn beta. intros j2 [] n (-> & K1 & K2 & ->).
    eapply spec_bind; [apply (V E j2 HE)|cbn beta; intros n N; apply (R (reach j2)); ah|]. cbn beta. intros j3 v n (L1 & L2). eapply spec_bind; [apply s_tag|cbn beta; intros q [-> _]; cbn [CRLF length]; apply (R (reach j2)); ah|]. cbn beta. intros r [] q [-> ->]. apply spec_ok. cbn [CRLF length].
    split; [eapply lined_crlf; [|reflexivity]; ah|]. split; [lia|apply (R (reach j2)); ah].
  - intros W. apply nope_bind. destruct (take1_miss is_ftext i) as [e X]; [eapply begins_stops; [exact W|]; unfold is_wsp, is_ftext; lia|]. rewrite X. exact I.
Qed.
Lemma up3 : forall A size (p : env -> timed_parser A), bheaded d2 size p -> bheaded d3 size p.
Proof.
  intros A size p [C H]. exists C. intros E L HE i Hi. destruct (H E L HE i Hi) as [H1 H2]. split; [|exact H2]. assert (Q : d2 L <= d3 L) by (unfold d2, d3; nia). pose proof (Nat.mul_le_mono_r _ _ (S (reach i)) (mono C _ _ Q)).
  eapply spec_weak; [exact H1| |]; cbn beta; [intros r a n (X & Y & Z); split; [exact X|]; split; [exact Y|lia]|intros; lia].
Qed.
Lemma plain3 : forall A size (p : env -> timed_parser A), headed size p -> bheaded d3 size p.
Proof. intros. now apply bheaded_plain. Qed.
Ltac brs h := apply (bheads_cons trace_field d3 (fun _ => 0)); [eapply bheaded_pmap; [apply bheaded_resent; [auto|exact h]|intros; apply Nat.le_0_l]|].
Lemma b_resent_field : bheaded d3 (fun _ => 0) m_resent_field.
Proof. unfold m_resent_field. brs (plain3 _ _ _ h_date). brs b_from0. brs b_sender. brs b_to. brs b_cc. brs b_bcc. brs (plain3 _ _ _ h_message_id). apply (bheads_nil trace_field). Qed.
Definition third (f : field) : nat := weight f / 11.
Ltac baf h := apply (bheads_cfg field d3 third); [eapply bheaded_pmap; [exact h|intros; cbn [third weight]; first [apply Nat.le_refl|repeat match goal with x : _ * _ |- _ => destruct x end; cbn; lia]]|].
Lemma b_any_field : bheaded d3 third m_any_field.
Proof.
  unfold m_any_field, m_field_parsers. baf (plain3 _ _ _ h_date). baf b_from. baf b_sender. baf b_reply_to. baf b_to. baf b_cc. baf b_bcc. baf (plain3 _ _ _ h_message_id). baf (plain3 _ _ _ h_in_reply_to). baf (plain3 _ _ _ h_references). baf b_subject. baf b_comments.
  baf b_version. baf (up3 _ _ _ b_type). baf (up3 _ _ _ b_encoding). baf (up3 _ _ _ b_id). baf (up3 _ _ _ b_description). baf (up3 _ _ _ b_disposition). baf b_keywords.
  apply (bheads_cons field d3 third (fun E => t_pmap (fun '(n, v) => FUnknown n v) (m_unknown E)) (fun _ => [])); [|apply bheads_nil]. eapply bheaded_pmap; [exact (up3 _ _ _ b_unknown)|]. intros [n v]. apply Nat.le_0_l.
Qed.
Ltac beh h := apply (bheads_cons entity_header d2 (fun _ => 0)); [eapply bheaded_pmap; [exact h|intros; apply Nat.le_0_l]|].
Lemma b_entity_header : bheaded d2 (fun _ => 0) m_entity_header.
Proof. unfold m_entity_header. beh b_encoding. beh b_type. beh b_id. beh b_description. beh b_disposition. beh b_unknown. apply (bheads_nil entity_header). Qed.

(* The soundness results of SoundTime.v, SoundAddr.v, SoundFields.v and EmailProofs.v in the
   form used by the properties. *)
From Coq Require Import Permutation Lia.
From Verif Require Import Base Utf8 Combinators Time Address MimeFields Fields Message Entity Email Envs Rfc5322 Rfc2047 CodecSpec
  RfcFields EmailSpec Post SoundBase SoundTime SoundAddr ParamProofs SoundFields SoundMessage EmailProofs.

Lemma post_inv : forall A K (x : res (bytes * A)) i P r v, post K x i P -> x = Ok (r, v) -> exists c, i = c ++ r /\ P c v.
Proof. intros A K x i P r v H ->. exact H. Qed.

Lemma date_conforms : forall E i r d, date_time E i = Ok (r, d) -> exists c, i = c ++ r /\ rfc_date_time c d.
Proof. intros E i r d H. destruct (post_inv _ _ _ _ _ _ _ (sound_date_time E never i) H) as (c & -> & Hc & _). eauto. Qed.
Lemma date_range : forall E i r d, date_time E i = Ok (r, d) -> date_in_range d.
Proof. intros E i r d H. destruct (post_inv _ _ _ _ _ _ _ (sound_date_time E never i) H) as (c & -> & _ & Hd). auto. Qed.

Lemma mailbox_conforms : forall E i r m, mailbox E i = Ok (r, m) -> exists c, i = c ++ r /\ rfc_mailbox (f_compatibility_fixes E) (encoded E) c m.
Proof. intros E i r m. exact (post_inv _ _ _ _ _ _ _ (sound_mailbox E never i)). Qed.
Lemma mailbox_list_conforms : forall E i r m, mailbox_list E i = Ok (r, m) -> exists c, i = c ++ r /\ rfc_mailbox_list (f_compatibility_fixes E) (encoded E) c m.
Proof. intros E i r m. exact (post_inv _ _ _ _ _ _ _ (sound_mailbox_list E never i)). Qed.
Lemma group_conforms : forall E i r m, group E i = Ok (r, m) -> exists c, i = c ++ r /\ rfc_group (f_compatibility_fixes E) (encoded E) c m.
Proof. intros E i r m. exact (post_inv _ _ _ _ _ _ _ (sound_group E never i)). Qed.
Lemma address_list_conforms : forall E i r m, address_list E i = Ok (r, m) -> exists c, i = c ++ r /\ rfc_address_list (f_compatibility_fixes E) (encoded E) c m.
Proof. intros E i r m. exact (post_inv _ _ _ _ _ _ _ (sound_address_list E never i)). Qed.
Lemma message_id_conforms : forall E i r m, message_id E i = Ok (r, m) -> exists c, i = c ++ r /\ rfc_msg_id (f_compatibility_fixes E) c m.
Proof. intros E i r m. exact (post_inv _ _ _ _ _ _ _ (sound_message_id E never i)). Qed.
Lemma path_conforms : forall E i r m, return_path_value E i = Ok (r, m) -> exists c, i = c ++ r /\ rfc_path (f_compatibility_fixes E) c m.
Proof. intros E i r m. exact (post_inv _ _ _ _ _ _ _ (sound_path E never i)). Qed.

(* ---- all the dates of an email ---- *)
Lemma many_in : forall A (P : bytes -> A -> Prop) c l a, many_of P c l -> In a l -> exists c', P c' a.
Proof. intros A P c l a H. induction H as [|c x cs l Hc Hl IH]; cbn; [tauto|]. intros [->|]; eauto. Qed.
Lemma header_value : forall A n (V : bytes -> A -> Prop) c v, rfc_header n V c v -> exists c', V c' v.
Proof. intros A n V c v []. eauto. Qed.
Lemma date_value_range : forall c d, rfc_date_value c d -> date_in_range d.
Proof. now intros c d [_ H]. Qed.
Lemma field_dates : forall E c f, field_text E c f ->
  match f with
  | FDate d => date_in_range d
  | FTrace p r l => forall d, In d (trace_dates (p, r, l)) -> date_in_range d
  | FContentDisposition x => forall d, In d (disposition_dates x) -> date_in_range d
  | _ => True
  end.
Proof.
  intros E c f H. destruct H; auto.
  - apply header_value in H0 as (c' & H0). eapply date_value_range; eauto.
  - match goal with H : rfc_header "Content-Disposition" _ _ _ |- _ => apply header_value in H as (c' & H0') end. destruct H0'.
    assert (A : forall sel, (forall i d, sel i = Some d -> i = DCreation d \/ i = DModification d \/ i = DRead d) ->
      forall d, In d (opt_list (last_some sel items)) -> date_in_range d).
    { intros sel Hsel d Hd.
      assert (forall c, many_of rfc_disposition_item c items -> date_in_range d) as X; [|eapply X; eauto].
      assert (exists i, In i items /\ sel i = Some d) as (it & Hi & Hs).
      { clear -Hd. induction items as [|x l IH]; cbn in Hd; [destruct Hd|]. destruct (last_some sel l) as [y|].
        - destruct (IH Hd) as (i & ? & ?). exists i. cbn; auto.
        - destruct (sel x) as [y|] eqn:F; cbn in Hd; [|tauto]. destruct Hd as [<-|[]]. exists x. cbn; auto. }
      intros c7 Hm. destruct (many_in _ _ _ _ _ Hm Hi) as (c8 & Hc1). apply Hsel in Hs as [-> |[-> | ->]]; inversion Hc1; subst; eapply date_value_range; eauto. }
    intros dd Hd. unfold disposition_dates in Hd. cbn in Hd. apply in_app_or in Hd as [Hd|Hd]; [|apply in_app_or in Hd as [Hd|Hd]].
    all: eapply A; [|exact Hd]; intros [] ?; inversion 1; auto.
  - intros dd Hd. cbn in Hd. apply in_app_or in Hd as [Hd|Hd].
    + apply in_map_iff in Hd as ([l' d'] & <- & Hd).
      match goal with H : many_of (rfc_header "Received" _) _ _ |- _ => destruct (many_in _ _ _ _ _ H Hd) as (c' & Hc') end.
      apply header_value in Hc' as (c'' & Hc'). inversion Hc'; subst. eapply date_value_range; eauto.
    + apply in_concat in Hd as (l' & Hl & Hd). apply in_map_iff in Hl as (t & <- & Ht).
      match goal with H : many_of (rfc_resent _ _) _ _ |- _ => destruct (many_in _ _ _ _ _ H Ht) as (c' & Hc') end.
      destruct Hc'; cbn in Hd; try contradiction. destruct Hd as [<-|[]]. apply header_value in H4 as (c'' & H4). eapply date_value_range; eauto.
Qed.
Lemma parse_dates : forall E data e d, env_ok E -> parse E data = Ok e -> In d (email_dates e) -> date_in_range d.
Proof.
  intros E data e d HE H Hd. destruct (no_byte_lost E data e HE H) as (ts & fs & b & Ht & _ & _ & He).
  assert (F : forall f, In f fs -> exists c, field_text E c f).
  { clear -Ht. induction Ht; cbn; [tauto|]. intros f [<-|]; eauto. }
  unfold email_dates in Hd. apply in_app_or in Hd as [Hd|Hd]; [|apply in_app_or in Hd as [Hd|Hd]].
  - pose proof (of_date _ _ _ _ He) as X. destruct (f_date E); [|rewrite X in Hd; destruct Hd]. destruct X as [X _]. rewrite <- X in Hd.
    unfold only in Hd. destruct (pick is_date fs) as [|x l] eqn:P; cbn in Hd; [destruct Hd|]. destruct Hd as [<-|[]].
    assert (I : In x (pick is_date fs)) by (rewrite P; now left). apply in_pick in I as (f & If & Hf). destruct f; try discriminate. inversion Hf; subst.
    destruct (F _ If) as (c & Hc). exact (field_dates _ _ _ Hc).
  - apply in_concat in Hd as (l & Hl & Hd). apply in_map_iff in Hl as (t & <- & Hl). rewrite (of_trace _ _ _ _ He) in Hl. apply in_pick in Hl as (f & If & Hf).
    destruct f; try discriminate. inversion Hf; subst. destruct (F _ If) as (c & Hc). exact (field_dates _ _ _ Hc d Hd).
  - pose proof (of_mime _ _ _ _ He) as X. destruct (f_mime E); [|rewrite X in Hd; destruct Hd]. destruct X as (v & _ & X). rewrite X in Hd. cbn in Hd.
    unfold only in Hd. destruct (pick is_content_disposition fs) as [|x l] eqn:P; cbn in Hd; [destruct Hd|].
    assert (I : In x (pick is_content_disposition fs)) by (rewrite P; now left). apply in_pick in I as (f & If & Hf). destruct f; try discriminate. inversion Hf; subst.
    destruct (F _ If) as (c & Hc). exact (field_dates _ _ _ Hc d Hd).
Qed.

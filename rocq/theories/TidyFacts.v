(* C41: a structured header is recognised only if no blank comes right before its line end,
   except after a fold. *)
From Coq Require Import Lia ZifyBool ZifyNat ZifyN.
From Verif Require Import Base Utf8 CharSets Combinators Whitespace QuotedString Common Time Address MimeFields Fields Message Entity Email Envs
  Rfc5322 Rfc2047 Post CodecSpec RfcFields SoundBase SoundTime SoundAddr TagNoCase SoundFields EmailSpec SoundMessage EmailProofs Complete CompleteFields Forward
  ForwardFields ForwardMessage HeaderFacts Writers WriteFacts WriteAddr RegularSpec RegularFacts NeatFacts.
Local Open Scope N_scope.

Lemma tidy_line_of : forall c, tidy c -> tidy_line (c ++ CRLF).
Proof. intros c H v E. apply app_inv_tail in E. now subst v. Qed.
Lemma header_neat : forall A E e1 e2 m1 (p : parser A) m2 (name : string) j r v, nocase_pair (bs e1) (bs e2) = true -> bs e1 = bs name ++ [58] -> (forall j, neat (p j) j) ->
  header E e1 e2 m1 p m2 j = Ok (r, v) -> no_blank r -> exists c, j = c ++ r /\ tidy_line c.
Proof.
  intros A E e1 e2 m1 p m2 name j r v H1 H2 HP H Hr. unfold header in H. pose proof (post_tag_no_case E never (bs e1) (bs e2) m1 j H1) as T.
  destruct (tag_no_case E (bs e1) (bs e2) m1 j) as [[j1 u]|e|k]; cbn [bind] in H; try discriminate. destruct T as (k & -> & Hk). specialize (HP j1). destruct (p j1) as [[j2 v']|e|k']; cbn [bind] in H; try discriminate.
  destruct HP as (c & -> & Hc). destruct (tag_inv CRLF m2 j2) as [(t & -> & X)|[_ X]]; rewrite X in H; cbn [bind] in H; [|discriminate]. injection H as -> ->.
  exists ((k ++ c) ++ CRLF). split; [now rewrite <- !app_assoc|]. apply tidy_line_of. apply tidy_app; [apply Hc; exists r; auto|]. intros _. rewrite H2 in Hk. apply name_colon in Hk as (n & -> & _). apply ink_tidy, ink_one. unfold rfc_WSP. lia.
Qed.
Definition tidily_read (p : parser field) : Prop := forall j r f, p j = Ok (r, f) -> no_blank r -> structured_kind f -> exists c, j = c ++ r /\ tidy_line c.
Lemma read_header : forall A (F : A -> field) E e1 e2 m1 (p : parser A) m2 (name : string), nocase_pair (bs e1) (bs e2) = true -> bs e1 = bs name ++ [58] -> (forall j, neat (p j) j) ->
  tidily_read (pmap F (header E e1 e2 m1 p m2)).
Proof.
  intros A F E e1 e2 m1 p m2 name H1 H2 HP j r f H Hr _. unfold pmap in H. destruct (header E e1 e2 m1 p m2 j) as [[r' v]|e|k] eqn:X; cbn [bind] in H; try discriminate. injection H as -> _. eapply header_neat; eauto.
Qed.
Lemma read_other : forall A (F : A -> field) (p : parser A), (forall a, ~ structured_kind (F a)) -> tidily_read (pmap F p).
Proof. intros A F p HF j r f H _ Hs. unfold pmap in H. destruct (p j) as [[r' v]|e|k]; cbn [bind] in H; try discriminate. injection H as _ <-. exfalso. exact (HF v Hs). Qed.
Ltac rh nm L := apply read_header with (name := nm); [reflexivity|reflexivity|intros; apply L].
Lemma fields_tidily : forall E, Forall tidily_read (field_parsers E).
Proof.
  intros E. unfold field_parsers.
  assert (D : forall j, neat (date_time E j) j) by (intros; apply firm_neat, firm_date_time). assert (M : forall j, neat (mailbox E j) j) by (intros; apply firm_neat, firm_mailbox).
  assert (ML : forall j, neat (mailbox_list E j) j) by (intros; apply firm_neat, firm_mailbox_list). assert (AL : forall j, neat (address_list E j) j) by (intros; apply firm_neat, firm_address_list).
  assert (ID : forall j, neat (message_id E j) j) by (intros; apply firm_neat, firm_message_id).
  repeat (apply Forall_cfg; [intros _; try (apply read_other; first [intros x X; exact X|intros [[? ?] ?] X; exact X|intros [? ?] X; exact X])|]);
    [rh "Date"%string D|rh "From"%string ML|rh "Sender"%string M|rh "Reply-To"%string AL|rh "To"%string AL|rh "Cc"%string AL|rh "Bcc"%string (neat_bcc_value E)
    |rh "Message-ID"%string ID|rh "In-Reply-To"%string (neat_ids E)|rh "References"%string (neat_ids E)|..].
  - match goal with |- tidily_read (pmap FContentId ?p) => change p with (header E "Content-ID:" "cONTENT-id:" "TAG NO CASE ERROR: Header name (Content-ID) does not match." (message_id E) "TAG ERROR: A header (`Content-ID` in this case) must end with a CRLF sequence.") end.
    rh "Content-ID"%string ID.
  - rh "Keywords"%string (neat_keywords_value E).
  - constructor; [|constructor]. apply read_other. intros [n v] X. exact X.
Qed.
Theorem recognised_tidy : forall E j r f, any_field E j = Ok (r, f) -> no_blank r -> structured_kind f -> exists c, j = c ++ r /\ tidy_line c.
Proof.
  intros E j r f H Hr Hf. unfold any_field in H. apply match_ok in H as (p & Hp & H). pose proof (fields_tidily E) as G. rewrite Forall_forall in G. eapply G; eauto.
Qed.
Lemma alike_kind : forall f f', alike f f' -> structured_kind f -> structured_kind f'.
Proof. intros f f' A H. destruct A; auto. Qed.
Theorem recognised_iff_tidy : forall E c f i, env_ok E -> field_text E c f -> structured_kind f -> unmarked (f_mime E) c -> no_blank i ->
  (exists f', any_field E (c ++ i) = Ok (i, f') /\ alike f f') <-> tidy_line c.
Proof.
  intros E c f i HE H Hk Hm Hi. split.
  - intros (f' & X & A). destruct (recognised_tidy E _ _ _ X Hi (alike_kind _ _ A Hk)) as (c' & E' & T). apply app_inv_tail in E'. now subst c'.
  - intros T. apply header_recognised; auto. split; [exact Hm|]. destruct f; try exact T; destruct Hk.
Qed.

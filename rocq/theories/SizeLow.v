(* C64: the bounds on sizes are sharp. *)
From Coq Require Import Lia.
From Verif Require Import Base Combinators Time Address MimeFields Fields Message Entity Email Envs EnvOk Rfc5322 CodecSpec RfcFields EmailSpec TextSpec SizeSpec Post Steps Local SoundBase ForwardFields ForwardMessage LineSpec LineFacts
  EmailProofs Writers ShownSpec ShownWriters RegularFacts MessageFacts TreeFacts SizeFacts.
Local Open Scope nat_scope.

(* a long address: it is the From and the sender *)
Definition long_address (n : nat) : bytes := repeat 97%N (S n) ++ bs "@b".
Definition long_from (n : nat) : bytes := bs "From: " ++ long_address n ++ CRLF ++ date_line.
Definition long_box (n : nat) : mailbox_t := {| m_name := None; m_address := {| a_local_part := repeat 97%N (S n); a_domain := bs "b" |} |}.
Lemma atoms : forall l, l <> [] -> Forall (fun c => rfc_atext c) l -> rfc_dot_atom_text false l.
Proof. intros l N H. rewrite <- (app_nil_r l). constructor; [now split|constructor]. Qed.
Lemma long_written : forall n, written_list written_mailbox (long_address n) [long_box n].
Proof.
  intros n. apply list_one. apply plain_mailbox. apply (written_address_intro (repeat 97%N (S n)) _ (bs "b") (bs "b")).
  - apply bare_local; [|intros t; discriminate]. apply atoms; [discriminate|]. apply Forall_forall. intros x H. apply repeat_spec in H. subst x. now apply atext_spec.
  - apply bare_domain. apply atoms; [discriminate|]. constructor; [now apply atext_spec|constructor].
Qed.
Lemma date_last : exists d, any_field env_default date_line = Ok ([], FDate d).
Proof. eexists. vm_compute. reflexivity. Qed.
Lemma long_message : forall n, exists d, parse_message env_default (long_from n) = Ok ([FFrom [long_box n]; FDate d], None).
Proof.
  intros n. destruct date_last as [d HD]. exists d. apply message_ok. exists []. split; [|split; [now left|split; [constructor|intros _ x; discriminate]]].
  apply fields_of_steps; [exact env_default_ok| |].
  - intros _. apply no_starts_trace. apply (written_no_trace env_default "From" (bs "From") (bs " " ++ long_address n) (FFrom [long_box n]) (CRLF ++ date_line) eq_refl). constructor; [reflexivity|apply long_written].
  - eapply steps_more with (r := date_line).
    + destruct (written_read env_default "From" (bs "From") (bs " " ++ long_address n) (FFrom [long_box n]) date_line env_default_ok eq_refl) as (f & F & S); [constructor; [reflexivity|apply long_written]| |].
      * intros c r X. injection X as <- _. intros [Y|Y]; discriminate.
      * inversion S; subst. exact F.
    + unfold long_from. rewrite !app_length. cbn [length]. change (length (bs "From: ")) with 6. lia.
    + eapply steps_more; [exact HD|vm_compute; lia|]. eapply steps_stop. vm_compute. reflexivity.
Qed.
Lemma two_copies : forall D l m d, parse_message env_default D = Ok ([FFrom [{| m_name := None; m_address := {| a_local_part := l; a_domain := m |} |}]; FDate d], None) ->
  exists e, parse env_default D = Ok e /\ contents e = [l; m; l; m].
Proof. intros D l m d H. eexists. split; [unfold parse; rewrite H; reflexivity|]. vm_compute. reflexivity. Qed.
Theorem long_sender : forall n, exists D e, parse env_default D = Ok e /\ n <= length D /\ 2 * length D <= volume (contents e) + 78.
Proof.
  intros n. destruct (long_message n) as [d H]. apply two_copies in H as (e & H & C). exists (long_from n), e. split; [exact H|]. rewrite C.
  assert (L : length (long_from n) = n + 41) by (unfold long_from, long_address; rewrite !app_length, repeat_length; cbn; lia). rewrite L. split; [lia|].
  unfold volume. cbn [map list_sum fold_right]. rewrite repeat_length. cbn [length bs]. cbn. lia.
Qed.

(* a part of bytes that quoted-printable does not allow: each becomes the three bytes of U+FFFD *)
Definition bad_part (n : nat) : bytes := bs "Content-Transfer-Encoding:quoted-printable" ++ CRLF ++ CRLF ++ repeat 0%N n.
Lemma bad_decoding : forall n, qp_decoding (repeat 0%N n) = concat (repeat REPLACEMENT n).
Proof. induction n as [|n IH]; [reflexivity|]. cbn [repeat concat]. rewrite <- IH. destruct n; reflexivity. Qed.
Lemma bad_length : forall n, length (concat (repeat REPLACEMENT n)) = 3 * n.
Proof. induction n as [|n IH]; [reflexivity|]. cbn [repeat concat]. rewrite app_length, IH. cbn. lia. Qed.
Lemma entity_steps : forall E h hs b v, steps (entity_header_parser E) (h ++ CRLF ++ b) hs (CRLF ++ b) -> decode_value E b (encoding_of (h_encoding (fold_left set_header hs header_acc0))) = Ok v ->
  raw_entity E (h ++ CRLF ++ b) = Ok (let a := fold_left set_header hs header_acc0 in let '(t, s, p) := type_of (h_type a) in
    {| e_mime_type := t; e_subtype := s; e_description := h_description a; e_id := h_id a; e_parameters := p; e_disposition := h_disposition a; e_value := v; e_additional_headers := h_additional a |}).
Proof.
  intros E h hs b v S D. unfold raw_entity, header_part. rewrite (many_steps _ _ _ _ _ S). cbn [bind]. change (match CRLF ++ b with [] => ?x | _ :: _ => ?y end) with y. rewrite tag_app. cbn [bind].
  unfold usize_sub. rewrite !app_length. destruct (Nat.ltb_spec (length h + (length CRLF + length b)) (length b)) as [X|X]; [lia|]. cbn [bind].
  replace (length h + (length CRLF + length b) - length b) with (length (h ++ CRLF)) by (rewrite app_length; lia).
  rewrite app_assoc, index_from_app. cbn [bind]. unfold encoding_of in D. unfold type_of.
  change (match h_type (fold_left set_header hs header_acc0) with Some x => x | None => default_content_type end) with (type_of (h_type (fold_left set_header hs header_acc0))).
  change (match h_type (fold_left set_header hs header_acc0) with Some x => x | None => _ end) with (type_of (h_type (fold_left set_header hs header_acc0))). cbv zeta.
  destruct (type_of (h_type (fold_left set_header hs header_acc0))) as [[t s] p]. rewrite D. reflexivity.
Qed.
Theorem part_thrice : forall n, exists r, raw_entity env_mime (bad_part n) = Ok r /\ e_value r = concat (repeat REPLACEMENT n) /\ volume (part_contents r) = 3 * n + 20.
Proof.
  intros n. unfold bad_part. generalize (bad_decoding n) (bad_length n). generalize (concat (repeat REPLACEMENT n)). generalize (repeat 0%N n). intros b v HV HL.
  assert (S : steps (entity_header_parser env_mime) ((bs "Content-Transfer-Encoding:quoted-printable" ++ CRLF) ++ CRLF ++ b) [HEncoding QuotedPrintableEnc] (CRLF ++ b)).
  { eapply steps_more with (r := CRLF ++ b); [vm_compute; reflexivity|rewrite !app_length; cbn; lia|]. destruct (part_header_none env_mime (CRLF ++ b)) as [e X]; [right; eauto|]. eapply steps_stop. exact X. }
  assert (D : decode_value env_mime b QuotedPrintableEnc = Ok v) by (apply transfer_iff; rewrite <- HV; constructor).
  eexists. split; [exact (entity_steps _ _ _ _ _ S D)|split; [reflexivity|]].
  match goal with |- volume (part_contents ?r) = _ => assert (C : part_contents r = [bs "us-ascii"; bs "plain"; bs "charset"; v]) by (vm_compute; reflexivity) end.
  rewrite C. unfold volume. cbn [map list_sum fold_right]. change (length (bs "us-ascii")) with 8. change (length (bs "plain")) with 5. change (length (bs "charset")) with 7. unfold bytes, byte in *. lia.
Qed.
Lemma latin1_doubles : forall l, length (latin1_total l) <= 3 * length l.
Proof. intros l. unfold latin1_total. rewrite <- (map_length (fun b => (b mod 256)%N) l). generalize (map (fun b => (b mod 256)%N) l). intros m. unfold bytes, byte in *. induction m as [|b m IH]; [cbn; lia|]. cbn [latin1 length]. rewrite app_length. destruct (b <? 128)%N; cbn [length]; unfold bytes, byte in *; lia. Qed.

(* C69: the messages of all errors. *)
From Coq Require Import Lia.
From Verif Require Import Base Utf8 Base64 Charset Time Address MimeFields Fields Message Entity Email Envs EnvOk Rfc5322 Rfc2047 CodecSpec RfcFields EmailSpec MultipartSpec EntitySpec CutSpec
  RefuseSpec DebugSpec DebugFacts DebugMore RefuseFacts RefuseParts EmailProofs Display DisplaySpec.

Lemma error_eq_dec : forall x y : error, {x = y} + {x <> y}.
Proof. decide equality; apply string_dec. Defined.
Lemma entry_eq_dec : forall x y : string * error, {x = y} + {x <> y}.
Proof. decide equality; [apply error_eq_dec|apply string_dec]. Defined.
Lemma listed : forall x l, (if in_dec entry_eq_dec x l then true else false) = true -> In x l.
Proof. intros x l. now destruct (in_dec entry_eq_dec x l). Qed.
Ltac listed := apply listed; vm_compute; reflexivity.
Ltac show_entry := match goal with |- exists m, In (m, ?e) _ => exists (display e) end; listed.
Lemma fault_message : forall s l w, b64_fault s l = Some w -> In w ["Missing at least 3 bytes"; "Missing at least 2 bytes"; "Missing at least 1 byte"; "Data after end of data"]%string.
Proof.
  intros s l. revert s. induction l as [|x l IH]; intros s w; [destruct s; cbn; intros H; inversion H; subst; auto|]. cbn [b64_fault]. destruct s, x; try apply IH; intros H; inversion H; subst; cbn; auto.
Qed.
Lemma content_message : forall e b w, content_fault e b = Some w -> In (w, Unknown w) (skipn 22 mail_messages) /\ In (w, Unknown w) part_messages.
Proof.
  intros e b w H. destruct e; cbn [content_fault] in H; try discriminate.
  - apply fault_message in H. cbn in H. destruct H as [<-|[<-|[<-|[<-|[]]]]]; split; listed.
  - injection H as <-. split; listed.
Qed.
Lemma repeat_message : forall fs n, first_repeat fs n -> exists m, In (m, DuplicateHeader n) mail_messages.
Proof.
  intros fs n (pre & f & post & _ & Hf & _). destruct f; cbn [singular] in Hf; try discriminate Hf; injection Hf as <-; show_entry.
Qed.
Lemma table_display : forall m e, In (m, e) (mail_messages ++ part_messages) -> display e = m.
Proof.
  intros m e H. assert (F : Forall (fun x => display (snd x) = fst x) (mail_messages ++ part_messages)) by (cbn [mail_messages part_messages app]; repeat (constructor; [reflexivity|]); constructor). exact (proj1 (Forall_forall _ _) F _ H).
Qed.
Lemma release_parse_err : forall E d err, parse E d = Err err -> parse (release E) d = Err err.
Proof. intros E d err H. destruct (parse_un E d) as [X|[k X]]; congruence. Qed.
Lemma mail_message : forall E d err, env_ok E -> parse E d = Err err -> In (display err, err) mail_messages.
Proof.
  intros E d err HE H. apply release_parse_err in H. apply (refused_iff (release E) (release_ok E HE) (or_introl eq_refl)) in H. 
  assert (X : exists m, In (m, err) mail_messages).
  { destruct H as [_|fs b _ _ _|fs b n _ _ R|fs b _ _ _ _ _|fs b _ _ _ _ _ _|fs b l _ _ _ _ _ _ _ _|fs b w _ _ _ _ _ _ C].
    - show_entry.
    - show_entry.
    - exact (repeat_message _ _ R).
    - show_entry.
    - show_entry.
    - show_entry.
    - apply content_message in C as [C _]. exists w. rewrite <- (firstn_skipn 22 mail_messages). apply in_or_app. now right. }
  destruct X as [m X]. rewrite (table_display m err) by (apply in_or_app; now left). exact X.
Qed.
Lemma refused_part_message : forall E i err, refused_part E i err -> exists m, In (m, err) part_messages.
Proof. intros E i err [_|hs b w _ C]; [show_entry|]. apply content_message in C as [_ C]. eauto. Qed.
Lemma part_message : forall E i err, env_ok E -> f_mime E = true -> raw_entity E i = Err err -> In (display err, err) part_messages.
Proof.
  intros E i err HE HM H. assert (R : raw_entity (release E) i = Err err) by (destruct (raw_entity_un E i) as [X|[k X]]; congruence).
  apply (refused_part_iff (release E) (release_ok E HE) HM eq_refl) in R. apply refused_part_message in R as [m X]. rewrite (table_display m err) by (apply in_or_app; now right). exact X.
Qed.
Lemma entity_message : forall E r err, env_ok E -> f_mime E = true -> entity E r = Err err -> In (display err, err) part_messages.
Proof.
  intros E r err HE HM H. assert (R : entity (release E) r = Err err) by (destruct (entity_un E r) as [X|[k X]]; congruence).
  apply (refused_entity_iff (release E) (release_ok E HE) HM eq_refl) in R. assert (X : exists m, In (m, err) part_messages).
  { destruct R as [_ _|b _ _ _|b ps p qs err' _ _ _ _ R|cs _ _ _ _]; [show_entry|show_entry|exact (refused_part_message _ _ _ R)|show_entry]. }
  destruct X as [m X]. rewrite (table_display m err) by (apply in_or_app; now right). exact X.
Qed.
Lemma table_one : forall m e e', In (m, e) (mail_messages ++ part_messages) -> In (m, e') (mail_messages ++ part_messages) -> e = e'.
Proof.
  assert (F : forallb (fun x => forallb (fun y => if string_dec (fst x) (fst y) then if error_eq_dec (snd x) (snd y) then true else false else true) (mail_messages ++ part_messages)) (mail_messages ++ part_messages) = true) by (vm_compute; reflexivity).
  intros m e e' H H'. rewrite forallb_forall in F. specialize (F _ H). cbv beta in F. rewrite forallb_forall in F. specialize (F _ H'). cbn [fst snd] in F. destruct (string_dec m m); [|congruence]. now destruct (error_eq_dec e e').
Qed.
(* the message tells the error *)
Lemma mail_error : forall E E' d d' x y, env_ok E -> env_ok E' -> parse E d = Err x -> parse E' d' = Err y -> display x = display y -> x = y.
Proof.
  intros E E' d d' x y HE HE' H H' D. apply (table_one (display x)); apply in_or_app; left; [now apply (mail_message E d)|rewrite D; now apply (mail_message E' d')].
Qed.
Lemma entity_error : forall E E' r r' x y, env_ok E -> env_ok E' -> f_mime E = true -> f_mime E' = true -> entity E r = Err x -> entity E' r' = Err y -> display x = display y -> x = y.
Proof.
  intros E E' r r' x y HE HE' HM HM' H H' D. apply (table_one (display x)); apply in_or_app; right; [now apply (entity_message E r)|rewrite D; now apply (entity_message E' r')].
Qed.
Lemma composite_multipart : forall E r s es, entity E r = Ok (EMultipart s es) -> is_composite_type (e_mime_type r) = true.
Proof.
  intros E r s es H. unfold entity in H. destruct (e_mime_type r); try discriminate; [|reflexivity]. destruct (map_get _ _); [|discriminate]. destruct (find_charset _); [|discriminate]. destruct (decode_charset _ _ _); discriminate.
Qed.
Lemma composite_kinds : forall E r, is_composite_type (e_mime_type r) = true <-> e_mime_type r = CMultipart \/ e_mime_type r = CMessage /\ entity E r = Ok EUnknown.
Proof. intros E r. unfold entity. destruct (e_mime_type r); cbn; (split; [intros H|intros [H|[H _]]]); try discriminate; auto. Qed.

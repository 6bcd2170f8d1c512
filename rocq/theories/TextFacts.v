(* C32, C46: the strings of an email, from the grammar it was read with. *)
From Coq Require Import Lia ZifyBool ZifyNat ZifyN.
From Verif Require Import Base Utf8 Utf8Facts Post Time Address Percent PercentProofs MimeFields Fields Message Entity Email Envs EnvOk Rfc5322 CodecSpec Rfc2047 RfcFields
  SoundBase SoundFields EmailSpec SoundMessage EntitySpec EntityProofs EmailProofs Writers TextSpec.
Local Open Scope N_scope.

Definition plain (v : bytes) : Prop := chars printable v.
Lemma plain_app : forall a b, plain a -> plain b -> plain (a ++ b).
Proof. intros. apply Forall_app. auto. Qed.
Lemma plain_chars : forall (P : byte -> Prop) v, (forall c, P c -> printable c) -> chars P v -> plain v.
Proof. intros P v H. apply Forall_impl. exact H. Qed.
Ltac pr := unfold printable, rfc_VCHAR, rfc_WSP, rfc_DIGIT, rfc_dtext, rfc_qtext, rfc_ftext in *; lia.
Lemma plain_wsp : forall v, chars rfc_WSP v -> plain v.
Proof. intros v. apply plain_chars. intros. pr. Qed.
Lemma plain_atext : forall v, chars rfc_atext v -> plain v.
Proof. intros v. apply plain_chars. intros c H. apply rfc_atext_ascii in H. pr. Qed.
Lemma plain_fws : forall c v, rfc_oFWS c v -> plain v.
Proof. intros c v [|c' v' [w [_ H]|w1 w2 H1 [_ H2]]]; [constructor| |]; [now apply plain_wsp|]. apply plain_app; now apply plain_wsp. Qed.
Lemma plain_dot_tail : forall b t, rfc_dot_tail b t -> plain t.
Proof. intros b t H. induction H; [constructor|]. apply plain_app; [repeat constructor; pr|]. apply plain_app; auto using plain_atext. Qed.
Lemma plain_dot_text : forall b t, rfc_dot_atom_text b t -> plain t.
Proof. intros b t [a t' [_ H1] H2]. apply plain_app; [now apply plain_atext|]. eapply plain_dot_tail; eauto. Qed.
Lemma plain_pair : forall t c, rfc_quoted_pair t c -> printable c.
Proof. intros t c [x H]. exact H. Qed.
Lemma plain_qbody : forall b v, rfc_qbody b v -> plain v.
Proof.
  intros b v H. induction H; [eapply plain_fws; eauto|]. apply plain_app; [eapply plain_fws; eauto|]. apply plain_app; [|assumption].
  constructor; [|constructor]. destruct H0 as [c Hc|t c Hc]; [pr|eapply plain_pair; eauto].
Qed.
Lemma plain_quoted : forall c v, rfc_quoted_string c v -> plain v.
Proof. intros c v [l b v' r _ H _]. eapply plain_qbody; eauto. Qed.
Lemma plain_word : forall c v, rfc_word c v -> plain v.
Proof. intros c v [c' v' [l a r _ [_ H] _]|c' v' H]; [now apply plain_atext|eapply plain_quoted; eauto]. Qed.
Lemma plain_dbody : forall c v, rfc_dbody c v -> plain v.
Proof. intros c v H. induction H; [constructor|]. apply plain_app; auto. constructor; [pr|constructor]. Qed.
Lemma plain_domain : forall b c v, rfc_domain b c v -> plain v.
Proof. intros b c v [c' v' [l a r _ H _]|c' v' [l x v'' r _ H _]]; [eapply plain_dot_text; eauto|eapply plain_dbody; eauto]. Qed.
Lemma plain_addr : forall b c a, rfc_addr_spec b c a -> Forall plain (email_address_strings a).
Proof.
  intros b c a [c1 l c2 d H1 H2]. repeat constructor; cbn; [|eapply plain_domain; eauto]. destruct H1 as [c' v' [x a' r _ H _]|c' v' H]; [eapply plain_dot_text; eauto|eapply plain_quoted; eauto].
Qed.
Lemma plain_angle : forall b c a, rfc_angle_addr b c a -> Forall plain (email_address_strings a).
Proof. intros b c a [l c' a' r _ H _]. eapply plain_addr; eauto. Qed.
Lemma plain_id : forall b c i, rfc_msg_id b c i -> Forall plain (id_strings i).
Proof.
  intros b c i [l a c' x r _ H1 H2 _]. repeat constructor; cbn; [eapply plain_dot_text; eauto|]. destruct H2 as [a' H|d H]; [eapply plain_dot_text; eauto|].
  eapply plain_chars; [|exact H]. intros. pr.
Qed.
Lemma fold_printable : forall c, printable c -> printable (fold_case c).
Proof. intros c H. unfold fold_case. destruct ((65 <=? c) && (c <=? 90)) eqn:E; [|assumption]. pr. Qed.
Lemma plain_fold : forall v, plain v -> plain (map fold_case v).
Proof. intros v H. apply Forall_map. eapply Forall_impl; [|exact H]. exact fold_printable. Qed.
Lemma plain_token : forall v, mime_token v -> plain v.
Proof. intros v [_ H]. eapply plain_chars; [|exact H]. intros c [Hc _]. pr. Qed.

Lemma many_in : forall A (P : bytes -> A -> Prop) c l, many_of P c l -> forall a, In a l -> exists c, P c a.
Proof. intros A P c l H. induction H as [|c x cs l Hx _ IH]; intros a HI; [easy|]. destruct HI as [<-|HI]; eauto. Qed.
Section Texts.
Variable W : bytes -> Prop.
Hypothesis W_plain : forall v, plain v -> W v.
Hypothesis W_app : forall a b, W a -> W b -> W (a ++ b).

Section Phrases.
Variables (compat : bool) (EW : bytes -> bytes -> Prop).
Hypothesis W_encoded : forall c v, EW c v -> W v.
Lemma phrase_texts : forall c l, rfc_phrase EW c l -> Forall W l.
Proof. intros c l [_ H]. induction H; constructor; auto. destruct H as [c v H|w x c v _ H]; eauto using plain_word. Qed.
Lemma mailbox_ok : forall c m, rfc_mailbox compat EW c m -> Forall W (mailbox_texts m) /\ Forall plain (mailbox_strings m).
Proof.
  intros c m [c1 n c2 a H1 H2|c' a H|c' a H]; cbn; (split; [|first [eapply plain_angle; now eauto|eapply plain_addr; now eauto]]); try constructor. eapply phrase_texts; eauto.
Qed.
Lemma comma_ok : forall A (P : bytes -> A -> Prop) f g, (forall c a, P c a -> Forall W (f a) /\ Forall plain (g a)) ->
  forall c l, comma_list P c l -> Forall W (concat (map f l)) /\ Forall plain (concat (map g l)).
Proof.
  intros A P f g H c l HL. induction HL as [c a Ha|c a cs l Ha _ [I1 I2]]; cbn [map concat]; destruct (H _ _ Ha) as [F G]; (split; apply Forall_app; split); auto; constructor.
Qed.
Lemma mailboxes_ok : forall c l, rfc_mailbox_list compat EW c l -> Forall W (concat (map mailbox_texts l)) /\ Forall plain (concat (map mailbox_strings l)).
Proof. intros c l. apply comma_ok. exact mailbox_ok. Qed.
Lemma address_ok : forall c a, rfc_address compat EW c a -> Forall W (address_texts a) /\ Forall plain (address_strings a).
Proof.
  intros c a [c' m H|c' g [c1 n c2 l r H1 H2 _]]; [now apply mailbox_ok in H|]. cbn.
  assert (L : Forall W (concat (map mailbox_texts l)) /\ Forall plain (concat (map mailbox_strings l))).
  { destruct H2 as [c0 l0 H|c0 _]; [eapply mailboxes_ok; eauto|cbn; auto]. }
  split; [|easy]. apply Forall_app. split; [|easy]. eapply phrase_texts; eauto.
Qed.
Lemma addresses_ok : forall c l, rfc_address_list compat EW c l -> Forall W (concat (map address_texts l)) /\ Forall plain (concat (map address_strings l)).
Proof. intros c l. apply comma_ok. exact address_ok. Qed.
Lemma bcc_ok : forall c l, rfc_bcc compat EW c l -> Forall W (concat (map address_texts l)) /\ Forall plain (concat (map address_strings l)).
Proof. intros c l [c' l' H|c' _]; [eapply addresses_ok; eauto|cbn; auto]. Qed.
Lemma keywords_ok : forall c l, comma_list (rfc_phrase EW) c l -> Forall W (concat l).
Proof. intros c l H. induction H as [c a Ha|c a cs l Ha _ I]; cbn [concat]; [rewrite app_nil_r|apply Forall_app; split; [|assumption]]; eapply phrase_texts; eauto. Qed.
Lemma resent_ok : forall c t, rfc_resent compat EW c t -> Forall W (resent_texts t) /\ Forall plain (resent_strings t).
Proof.
  intros c t [c' d H|c' l H|c' m H|c' l H|c' l H|c' l H|c' i H]; cbn [resent_texts resent_strings]; destruct H as [n x v _ H].
  - split; constructor. - eapply mailboxes_ok; eauto. - eapply mailbox_ok; eauto. - eapply addresses_ok; eauto. - eapply addresses_ok; eauto. - eapply bcc_ok; eauto.
  - split; [constructor|]. eapply plain_id; eauto.
Qed.
End Phrases.

Section Mime.
Variable tc : charset_id -> bytes -> bytes.
Hypothesis W_charset : forall cs raw v, charset_decodes tc cs raw v -> W v.
Lemma encoded_ok : forall c v, rfc_encoded_word tc c v -> W v.
Proof. intros c v H. destruct H. eauto. Qed.
Lemma utext_ok : forall b c v, mime_utext tc b c v -> W v.
Proof.
  intros b c v H. induction H as [a|a w v c t x H1 H2 _ IH|a w v e d t x H1 H2 _ IH].
  - apply W_plain. constructor.
  - apply W_app; [apply W_plain; eapply plain_fws; eauto|]. apply W_app; [|assumption]. apply W_plain. constructor; [pr|constructor].
  - apply W_app; [apply W_plain; destruct a; [constructor|eapply plain_fws; eauto]|]. apply W_app; [|assumption]. eapply encoded_ok; eauto.
Qed.
Lemma mime_text_ok : forall c v, mime_unstructured_text tc c v -> W v.
Proof. intros c v [t v' w H _]. eapply utext_ok; eauto. Qed.

(* parameters *)
Definition raw_ok (raw : list param) : Prop := Forall (fun '(n, _, _, v) => plain n /\ plain v) raw.
Lemma param_value_plain : forall c v, rfc_param_value c v -> plain v.
Proof. intros c v [c' H|c' v' H]; [now apply plain_token|eapply plain_quoted; eauto]. Qed.
Lemma param_ok : forall c p, rfc_param c p -> let '(n, _, _, v) := p in plain n /\ plain v.
Proof.
  intros c p [w w' n a i e c' v _ _ H1 H2]. split; [|eapply param_value_plain; eauto].
  inversion H1; subst; apply plain_fold; [|now apply plain_token]. match goal with H : chars1 _ _ |- _ => destruct H as [_ H]; eapply plain_chars; [|exact H] end. intros x [[Hx _] _]. pr.
Qed.
Lemma raw_ok_many : forall c l, many_of rfc_param c l -> raw_ok l.
Proof. intros c l H. induction H; constructor; auto. now apply param_ok in H. Qed.
Lemma last_some_in : forall A B (f : A -> option B) l b, last_some f l = Some b -> exists a, In a l /\ f a = Some b.
Proof.
  intros A B f l b. induction l as [|x l IH]; cbn; [discriminate|]. destruct (last_some f l) as [y|]; intros H; [|eauto].
  destruct (IH H) as (a & ? & ?). eauto.
Qed.
Lemma segment_ok : forall raw n k e v, raw_ok raw -> segment raw n k = Some (e, v) -> plain n /\ plain v.
Proof.
  intros raw n k e v H S. apply last_some_in in S as ([[[n' i] e'] v'] & HI & S). unfold raw_ok in H. rewrite Forall_forall in H. specialize (H _ HI). cbn in H.
  destruct (bytes_eqb n n') eqn:B; [|discriminate]. apply bytes_eqb_eq in B. subst. destruct i as [k'|]; [|discriminate]. destruct (k =? k'); [|discriminate]. injection S as -> ->. exact H.
Qed.
Lemma plain_value_ok : forall raw n v, raw_ok raw -> plain_value raw n = Some v -> plain n /\ plain v.
Proof.
  intros raw n v H S. apply last_some_in in S as ([[[n' i] e'] v'] & HI & S). unfold raw_ok in H. rewrite Forall_forall in H. specialize (H _ HI). cbn in H.
  destruct (bytes_eqb n n') eqn:B; [|discriminate]. apply bytes_eqb_eq in B. subst. destruct i as [k'|]; [discriminate|]. injection S as ->. exact H.
Qed.
Lemma ext_ok : forall cs t v, plain t -> ext_text tc cs t v -> W v.
Proof. intros cs t v Ht H. inversion H; subst; [eapply W_charset; eauto|now apply W_plain]. Qed.
Lemma tail_ok : forall raw n cs k r, raw_ok raw -> tail_value tc (segment raw n) cs k r -> W r.
Proof.
  intros raw n cs k r Hr H. induction H as [k _|k [e t] v r S N _ IH]; [apply W_plain; constructor|]. apply W_app; [|assumption].
  destruct (segment_ok _ _ _ _ _ Hr S) as [_ P]. inversion N; subst; auto. eapply ext_ok; eauto.
Qed.
Lemma param_value_ok : forall raw n v, raw_ok raw -> param_value tc raw n (Some v) -> plain n /\ W v.
Proof.
  intros raw n v Hr H. inversion H as [S E|[e t] v0 cs r S F T E]; subst.
  - destruct (plain_value_ok _ _ _ Hr E). auto.
  - destruct (segment_ok _ _ _ _ _ Hr S) as [Pn P]. split; [assumption|]. apply W_app; [|eapply tail_ok; eauto].
    inversion F; subst; auto. eapply ext_ok; [|eassumption]. apply Forall_app in P as [_ P]. apply Forall_inv_tail in P. apply Forall_app in P as [_ P]. now apply Forall_inv_tail in P.
Qed.
Lemma map_get_in : forall (l : list (bytes * bytes)) n, In n (map fst l) -> exists v, map_get l n = Some v.
Proof.
  induction l as [|[k v] l IH]; intros n H; [easy|]. cbn. destruct (bytes_eqb n k) eqn:B; [eauto|]. apply IH. destruct H as [H|H]; [|exact H]. cbn in H. subst.
  assert (bytes_eqb n n = true) by now apply bytes_eqb_eq. congruence.
Qed.
Lemma params_ok : forall raw l, raw_ok raw -> params_value tc raw l -> Forall W (map_values l) /\ Forall plain (map fst l).
Proof.
  intros raw l Hr H. split; apply Forall_forall.
  - intros v Hv. unfold map_values in Hv. apply in_concat in Hv as (x & Hx & Hv). apply in_map_iff in Hx as (k & <- & Hk). destruct (map_get l k) as [v'|] eqn:G; [|easy]. destruct Hv as [<-|[]].
    specialize (H k). rewrite G in H. now apply param_value_ok in H as [_ H].
  - intros k Hk. destruct (map_get_in l k Hk) as [v G]. specialize (H k). rewrite G in H. now apply param_value_ok in H as [H _].
Qed.
Lemma keyword_ok : forall A (table : list (bytes * A)) other c a f, (forall n a, In (n, a) table -> f a = []) -> (forall n, f (other n) = [n]) -> rfc_keyword table other c a -> Forall plain (f a).
Proof.
  intros A table other c a f H1 H2 [n c' a' HI _|c' H _]; [rewrite (H1 _ _ HI); constructor|]. rewrite H2. constructor; [|constructor]. now apply plain_fold, plain_token.
Qed.
Lemma content_type_ok : forall c t s l, rfc_content_type tc c (t, s, l) -> Forall W (map_values l) /\ Forall plain (type_strings t ++ [s] ++ map fst l).
Proof.
  intros c t s l H. inversion H; subst. match goal with H : many_of rfc_param _ _ |- _ => apply raw_ok_many in H as R end. edestruct params_ok as [P1 P2]; [exact R|eassumption|]. split; [assumption|].
  apply Forall_app. split; [|apply Forall_app; split; [constructor; [|constructor]; now apply plain_fold, plain_token|assumption]].
  eapply keyword_ok; [| |eassumption]; [|reflexivity]. intros n a Ha. cbn in Ha. repeat (destruct Ha as [[= <- <-]|Ha]; [reflexivity|]). easy.
Qed.
Lemma items_ok : forall c l, many_of rfc_disposition_item c l -> raw_ok (params_of l) /\ Forall (fun x => match x with DFilename v => plain v | _ => True end) l.
Proof.
  intros c l H. induction H as [|c a cs l Ha _ [I1 I2]]; [split; constructor|]. unfold params_of in *. cbn [map concat]. split; [apply Forall_app; split; [|assumption]|constructor; [|assumption]].
  - destruct Ha as [| | | |c p Hp]; try constructor; [|constructor]. apply param_ok in Hp. exact Hp.
  - destruct Ha; auto. eapply param_value_plain; eauto.
Qed.
Lemma disposition_ok : forall c d, rfc_disposition tc c d -> Forall W (disposition_texts d) /\ Forall plain (disposition_strings d).
Proof.
  intros c d [w c' k is items l x _ H1 H2 H3 _]. destruct (items_ok _ _ H2) as [R F]. destruct (params_ok _ _ R H3) as [P1 P2]. split; [exact P1|]. unfold disposition_strings. cbn [disposition_type disp_filename disp_unstructured].
  apply Forall_app. split; [|apply Forall_app; split; [|exact P2]].
  - eapply (keyword_ok _ _ _ _ _ (fun k => match k with DUnknown n => [n] | _ => [] end)); [| |exact H1]; [|reflexivity]. intros n a Ha. cbn in Ha. repeat (destruct Ha as [[= <- <-]|Ha]; [reflexivity|]). easy.
  - destruct (last_some _ items) as [v|] eqn:L; [|constructor]. constructor; [|constructor]. apply last_some_in in L as (a & HI & L). rewrite Forall_forall in F. specialize (F _ HI). destruct a; try discriminate. injection L as ->. exact F.
Qed.
End Mime.

(* ---- fields ---- *)
Definition field_texts (f : field) : list bytes :=
  match f with
  | FFrom l => concat (map mailbox_texts l) | FSender m => mailbox_texts m | FSubject s | FComments s | FContentDescription s => [s]
  | FTo l | FCc l | FBcc l | FReplyTo l => concat (map address_texts l) | FKeywords l => concat l | FTrace p r l => trace_texts (p, r, l)
  | FContentType _ _ p => map_values p | FContentDisposition d => disposition_texts d | FUnknown _ v => [v] | _ => []
  end.
Definition field_strings (f : field) : list bytes :=
  match f with
  | FFrom l => concat (map mailbox_strings l) | FSender m => mailbox_strings m
  | FTo l | FCc l | FBcc l | FReplyTo l => concat (map address_strings l) | FTrace p r l => trace_strings (p, r, l)
  | FMessageId i | FContentId i => id_strings i | FInReplyTo l | FReferences l => concat (map id_strings l)
  | FContentType t s p => type_strings t ++ [s] ++ map fst p | FContentDisposition d => disposition_strings d | FUnknown n _ => [n] | _ => []
  end.
Lemma utext_plain : forall c v, rfc_unstructured c v -> plain v.
Proof.
  intros c v [t v' w H _]. induction H; [constructor|]. apply plain_app; [eapply plain_fws; eauto|]. apply plain_app; [|assumption]. constructor; [pr|constructor].
Qed.
Lemma many_ok : forall A (P : bytes -> A -> Prop) (Q : bytes -> Prop) f c l, (forall c a, P c a -> Forall Q (f a)) -> many_of P c l -> Forall Q (concat (map f l)).
Proof. intros A P Q f c l H HL. induction HL; cbn; [constructor|]. apply Forall_app. eauto. Qed.
Lemma token_ok : forall b c t, rfc_received_token b c t -> Forall plain (token_strings t).
Proof.
  intros b c t [c' w H|c' a H|c' a H|c' d H]; cbn [token_strings].
  - repeat constructor. eapply plain_word; eauto. - eapply plain_angle; eauto. - eapply plain_addr; eauto. - repeat constructor. eapply plain_domain; eauto.
Qed.
Lemma trace_ok : forall b (EW : bytes -> bytes -> Prop) c1 p c2 r c3 l, (forall c v, EW c v -> W v) -> rfc_return b c1 p -> many_of (rfc_header "Received" (rfc_received b)) c2 r -> many_of (rfc_resent b EW) c3 l ->
  Forall W (trace_texts (p, r, l)) /\ Forall plain (trace_strings (p, r, l)).
Proof.
  intros b EW c1 p c2 r c3 l HW H1 H2 H3. split; [eapply many_ok; [|exact H3]; intros; eapply resent_ok; eauto|]. cbn [trace_strings].
  apply Forall_app. split; [|apply Forall_app; split].
  - destruct H1 as [|c p H]; [constructor|]. destruct H as [n x v _ H]. destruct H as [c' a H|x' y z _ _ _]; [eapply plain_angle; eauto|constructor].
  - eapply many_ok; [|exact H2]. intros c a [n x v _ H]. destruct H as [c' l' c'' d H _]. eapply many_ok; [|exact H]. intros; eapply token_ok; eauto.
  - eapply many_ok; [|exact H3]. intros; eapply resent_ok; eauto.
Qed.
Lemma value_ok : forall (b : bool) tc c v, (b = true -> forall cs raw v, charset_decodes tc cs raw v -> W v) -> rfc_text_value b tc c v -> W v.
Proof. intros [|] tc c v H T; cbn in T; [eapply mime_text_ok; eauto|apply W_plain; eapply utext_plain; eauto]. Qed.
Lemma ids_ok : forall b c l, rfc_msg_ids b c l -> Forall plain (concat (map id_strings l)).
Proof. intros b c l [_ H]. eapply many_ok; [|exact H]. intros; eapply plain_id; eauto. Qed.
Lemma name_ok : forall n, chars1 rfc_ftext n -> plain n.
Proof. intros n [_ H]. eapply plain_chars; [|exact H]. intros. pr. Qed.
Lemma header_inv : forall A n (V : bytes -> A -> Prop) c v, rfc_header n V c v -> exists c', V c' v.
Proof. intros A n V c v H. destruct H. eauto. Qed.
Lemma field_ok : forall E c f, (f_unrecognized_headers E = true -> f_mime E = true) -> (f_mime E = true -> forall cs raw v, charset_decodes (textcode E) cs raw v -> W v) ->
  field_text E c f -> Forall W (field_texts f) /\ Forall plain (field_strings f).
Proof.
  intros E c f HU HC H. assert (HE : forall c v, encoded E c v -> W v). { intros c' v [M H']. eapply encoded_ok; eauto. }
  destruct H as [c d _ H|c l _ H|c m _ H|c l _ H|c l _ H|c l _ H|c l _ H|c i _ H|c l _ H|c l _ H|c s _ H|c s _ H|c l _ H|c x y M H|c t s p M H|c e M H|c i M H|c s M H|c d M H|c1 p c2 r c3 l _ H1 _ H2 H3|c n v H];
    cbn [field_texts field_strings].
  all: try (apply header_inv in H as [c' H]).
  - split; constructor.
  - eapply mailboxes_ok; eauto. - eapply mailbox_ok; eauto. - eapply addresses_ok; eauto. - eapply addresses_ok; eauto. - eapply addresses_ok; eauto. - eapply bcc_ok; eauto.
  - split; [constructor|]. eapply plain_id; eauto.
  - split; [constructor|]. eapply ids_ok; eauto.
  - split; [constructor|]. eapply ids_ok; eauto.
  - split; repeat constructor. eapply value_ok; eauto.
  - split; repeat constructor. eapply value_ok; eauto.
  - split; [|constructor]. eapply keywords_ok; eauto.
  - split; constructor.
  - eapply content_type_ok; eauto.
  - split; constructor.
  - split; [constructor|]. eapply plain_id; eauto.
  - split; repeat constructor. eapply mime_text_ok; eauto.
  - eapply disposition_ok; eauto.
  - eapply trace_ok; eauto.
  - inversion H; subst. split; repeat constructor; [|now apply name_ok]. match goal with T : rfc_text_value _ _ _ _ |- _ => exact (value_ok _ _ _ _ (fun U => HC (HU U)) T) end.
Qed.

(* ---- emails ---- *)
Section Emails.
Variables (fs : list field) (Hfs : forall f, In f fs -> Forall W (field_texts f) /\ Forall plain (field_strings f)).
Lemma pick_in : forall A (sel : field -> option A) a, In a (pick sel fs) -> exists f, In f fs /\ sel f = Some a.
Proof. intros A sel a H. now apply in_pick in H. Qed.
Lemma only_ok : forall A (sel : field -> option A) (g h : A -> list bytes) o, only sel fs = o -> (forall f a, sel f = Some a -> field_texts f = g a) -> (forall f a, sel f = Some a -> field_strings f = h a) ->
  Forall W (match o with Some a => g a | None => [] end) /\ Forall plain (match o with Some a => h a | None => [] end).
Proof.
  intros A sel g h o H Hg Hh. destruct o as [a|]; [|split; constructor]. apply only_some in H as (f & HI & HS). rewrite <- (Hg _ _ HS), <- (Hh _ _ HS). auto.
Qed.
Lemma concat_ok : forall A (sel : field -> option A) (g h : A -> list bytes), (forall f a, sel f = Some a -> field_texts f = g a) -> (forall f a, sel f = Some a -> field_strings f = h a) ->
  Forall W (concat (map g (pick sel fs))) /\ Forall plain (concat (map h (pick sel fs))).
Proof.
  intros A sel g h Hg Hh. split; apply Forall_forall; intros x Hx; apply in_concat in Hx as (l & Hl & Hx); apply in_map_iff in Hl as (a & <- & Ha); apply pick_in in Ha as (f & HI & HS);
    destruct (Hfs f HI) as [F1 F2]; rewrite Forall_forall in F1, F2; [rewrite <- (Hg _ _ HS) in Hx|rewrite <- (Hh _ _ HS) in Hx]; auto.
Qed.
Lemma email_ok : forall E b e, email_of E fs b e -> Forall W (email_texts e) /\ Forall plain (email_strings e).
Proof.
  intros E b e H.
  Local Ltac field_eq := intros [] ? [= <-]; reflexivity.
  assert (F : Forall W (concat (map mailbox_texts (from e))) /\ Forall plain (concat (map mailbox_strings (from e)))).
  { pose proof (of_from _ _ _ _ H) as K. destruct (f_from E); [|rewrite K; split; constructor]. eapply (only_ok _ is_from (fun l => concat (map mailbox_texts l)) (fun l => concat (map mailbox_strings l))) in K; [exact K|field_eq|field_eq]. }
  assert (S : Forall W (match sender e with Some m => mailbox_texts m | None => [] end) /\ Forall plain (match sender e with Some m => mailbox_strings m | None => [] end)).
  { pose proof (of_sender _ _ _ _ H) as K. destruct (f_sender E); [|rewrite K; split; constructor]. destruct K as [K _]. rewrite K. unfold sender_of.
    pose proof (only_ok _ is_sender mailbox_texts mailbox_strings _ eq_refl) as O. destruct (only is_sender fs) as [m|]; [apply O; field_eq|].
    destruct (from e) as [|m [|m' l]]; [split; constructor| |split; constructor]. cbn in F. rewrite !app_nil_r in F. exact F. }
  assert (A : forall sel o, o = only sel fs -> (forall f a, sel f = Some a -> field_texts f = concat (map address_texts a) /\ field_strings f = concat (map address_strings a)) ->
              Forall W (opt_concat address_texts o) /\ Forall plain (opt_concat address_strings o)).
  { intros sel o K HS. apply (only_ok _ sel (fun l => concat (map address_texts l)) (fun l => concat (map address_strings l)) o (eq_sym K)); intros f a Hf; now destruct (HS f a Hf). }
  pose proof (A _ _ (of_to _ _ _ _ H)) as A1. pose proof (A _ _ (of_cc _ _ _ _ H)) as A2. pose proof (A _ _ (of_bcc _ _ _ _ H)) as A3. pose proof (A _ _ (of_reply_to _ _ _ _ H)) as A4.
  Local Ltac field_eq2 K := let f := fresh in let a := fresh in match type of K with ?P -> _ => let X := fresh in assert (X : P) by (intros [] ? [= <-]; split; reflexivity); specialize (K X); clear X end.
  field_eq2 A1. field_eq2 A2. field_eq2 A3. field_eq2 A4. clear A.
  assert (U : Forall W (opt_list (subject e))).
  { pose proof (of_subject _ _ _ _ H) as K. destruct (only_ok _ is_subject (fun s => [s]) (fun _ => []) _ (eq_sym K)) as [R _]; [field_eq|field_eq|]. destruct (subject e); exact R. }
  assert (C : Forall W (comments e)).
  { rewrite (of_comments _ _ _ _ H). destruct (concat_ok _ is_comments (fun s => [s]) (fun _ => [])) as [R _]; [field_eq|field_eq|]. rewrite <- (map_id (pick is_comments fs)). clear -R. induction (pick is_comments fs); cbn in *; [constructor|]. inversion R; subst. constructor; auto. }
  assert (K : Forall W (concat (keywords e))).
  { rewrite (of_keywords _ _ _ _ H). destruct (concat_ok _ is_keywords (@concat bytes) (fun _ => [])) as [R _]; [field_eq|field_eq|]. clear -R. induction (pick is_keywords fs) as [|x l IH]; cbn in *; [constructor|]. rewrite concat_app. apply Forall_app in R as [R1 R2]. apply Forall_app. auto. }
  assert (T : Forall W (concat (map trace_texts (trace_of e))) /\ Forall plain (concat (map trace_strings (trace_of e)))).
  { rewrite (of_trace _ _ _ _ H). apply concat_ok; field_eq. }
  assert (N : Forall W (map snd (unknown_fields e)) /\ Forall plain (map fst (unknown_fields e))).
  { rewrite (of_unknown _ _ _ _ H). destruct (concat_ok _ is_unknown (fun x => [snd x]) (fun x => [fst x])) as [R1 R2]; [field_eq|field_eq|].
    clear -R1 R2. induction (pick is_unknown fs) as [|x l IH]; cbn in *; [split; constructor|]. inversion R1; inversion R2; subst. destruct IH; auto. }
  assert (I1 : Forall plain (match message_id_of e with Some i => id_strings i | None => [] end)).
  { pose proof (of_message_id _ _ _ _ H) as Q. destruct (only_ok _ is_message_id (fun _ => []) id_strings _ (eq_sym Q)) as [_ R]; [field_eq|field_eq|exact R]. }
  assert (I2 : Forall plain (opt_concat id_strings (in_reply_to e))).
  { pose proof (of_in_reply_to _ _ _ _ H) as Q. destruct (only_ok _ is_in_reply_to (fun _ => []) (fun l => concat (map id_strings l)) _ (eq_sym Q)) as [_ R]; [field_eq|field_eq|exact R]. }
  assert (I3 : Forall plain (opt_concat id_strings (references e))).
  { pose proof (of_references _ _ _ _ H) as Q. destruct (only_ok _ is_references (fun _ => []) (fun l => concat (map id_strings l)) _ (eq_sym Q)) as [_ R]; [field_eq|field_eq|exact R]. }
  assert (M : Forall W (match mime_entity e with Some r => entity_texts r | None => [] end) /\ Forall plain (match mime_entity e with Some r => entity_strings r | None => [] end)).
  { pose proof (of_mime _ _ _ _ H) as Q. destruct (f_mime E); [|rewrite Q; split; constructor]. destruct Q as (v & _ & ->). unfold entity_texts, entity_strings. cbn [e_mime_type e_subtype e_description e_id e_parameters e_disposition e_additional_headers map].
    destruct (only_ok _ is_content_description (fun s => [s]) (fun _ => []) _ eq_refl) as [D1 _]; [field_eq|field_eq|].
    destruct (only_ok _ is_content_id (fun _ => []) id_strings _ eq_refl) as [_ D2]; [field_eq|field_eq|].
    destruct (only_ok _ is_content_disposition disposition_texts disposition_strings _ eq_refl) as [D3 D4]; [field_eq|field_eq|].
    assert (Y : Forall W (map_values (snd (type_of (only is_content_type fs)))) /\
                Forall plain (type_strings (fst (fst (type_of (only is_content_type fs)))) ++ [snd (fst (type_of (only is_content_type fs)))] ++ map fst (snd (type_of (only is_content_type fs))))).
    { pose proof (only_ok _ is_content_type (fun x => map_values (snd x)) (fun x => type_strings (fst (fst x)) ++ [snd (fst x)] ++ map fst (snd x)) _ eq_refl) as O.
      destruct (only is_content_type fs) as [[[t s] p]|]; [apply O; field_eq|]. cbn. split; [|apply Forall_forall; intros x Hx; apply Forall_forall; intros c Hc; cbn in Hx; repeat (destruct Hx as [<-|Hx]; [vm_compute in Hc; pr|]); easy].
      constructor; [|constructor]. apply W_plain. apply Forall_forall; intros c Hc; vm_compute in Hc; pr. }
    destruct Y as [Y1 Y2]. apply Forall_app in Y2 as [Y2 Y3]. apply Forall_app in Y3 as [Y3 Y4]. rewrite !app_nil_r. rewrite !Forall_app. destruct (only is_content_description fs); auto 10. }
  unfold email_texts, email_strings. rewrite !Forall_app.
  destruct F, S, A1, A2, A3, A4, T, N, M. split; [|split]; auto 20.
Qed.
End Emails.

(* ---- parts ---- *)
Lemma part_ok : forall E hs b r, (forall cs raw v, charset_decodes (textcode E) cs raw v -> W v) -> (exists c, many_of (part_header E) c hs) -> part_of hs b r ->
  Forall W (entity_texts r) /\ Forall plain (entity_strings r).
Proof.
  intros E hs b r HC [c HM] H.
  assert (L : forall A (f : entity_header -> option A) (a : A), last_some f hs = Some a -> exists c h, part_header E c h /\ f h = Some a).
  { intros A f a K. apply last_some_in in K as (h & HI & K). destruct (many_in _ _ _ _ HM h HI) as [c' Hc]. eauto. }
  pose proof (of_part_type _ _ _ H) as H1. pose proof (of_part_id _ _ _ H) as H2. pose proof (of_part_description _ _ _ H) as H3. pose proof (of_part_disposition _ _ _ H) as H4. pose proof (of_part_other _ _ _ H) as H5.
  assert (Y : Forall W (map_values (e_parameters r)) /\ Forall plain (type_strings (e_mime_type r) ++ [e_subtype r] ++ map fst (e_parameters r))).
  { destruct (last_some of_type hs) as [[[t s] p]|] eqn:K; cbn in H1; injection H1 as -> -> ->.
    - apply L in K as (c' & h & Hh & K). destruct h; try discriminate. injection K as -> -> ->. inversion Hh; subst. match goal with Q : rfc_header _ _ _ _ |- _ => apply header_inv in Q as [x Q] end. eapply content_type_ok; eauto.
    - split; [|apply Forall_forall; intros x Hx; apply Forall_forall; intros k Hk; cbn in Hx; repeat (destruct Hx as [<-|Hx]; [vm_compute in Hk; pr|]); easy].
      constructor; [|constructor]. apply W_plain. apply Forall_forall; intros k Hk; vm_compute in Hk; pr. }
  assert (I : Forall plain (match e_id r with Some i => id_strings i | None => [] end)).
  { rewrite H2. destruct (last_some of_id hs) as [i|] eqn:K; [|constructor]. apply L in K as (c' & h & Hh & K). destruct h; try discriminate. injection K as ->. inversion Hh; subst. match goal with Q : rfc_header _ _ _ _ |- _ => apply header_inv in Q as [x Q] end. eapply plain_id; eauto. }
  assert (D : Forall W (opt_list (e_description r))).
  { rewrite H3. destruct (last_some of_description hs) as [i|] eqn:K; [|constructor]. apply L in K as (c' & h & Hh & K). destruct h; try discriminate. injection K as ->. inversion Hh; subst. match goal with Q : rfc_header _ _ _ _ |- _ => apply header_inv in Q as [x Q] end. constructor; [|constructor]. eapply mime_text_ok; eauto. }
  assert (P : Forall W (match e_disposition r with Some d => disposition_texts d | None => [] end) /\ Forall plain (match e_disposition r with Some d => disposition_strings d | None => [] end)).
  { rewrite H4. destruct (last_some of_disposition hs) as [i|] eqn:K; [|split; constructor]. apply L in K as (c' & h & Hh & K). destruct h; try discriminate. injection K as ->. inversion Hh; subst. match goal with Q : rfc_header _ _ _ _ |- _ => apply header_inv in Q as [x Q] end. eapply disposition_ok; eauto. }
  assert (O : Forall W (map snd (e_additional_headers r)) /\ Forall plain (map fst (e_additional_headers r))).
  { rewrite H5. clear -HM HC W_plain W_app. induction HM as [|c h cs l Hh _ IH]; cbn; [split; constructor|]. rewrite !map_app, !Forall_app. destruct IH as [IH1 IH2].
    assert (Q : Forall W (map snd (opt_list (of_other h))) /\ Forall plain (map fst (opt_list (of_other h)))).
    { destruct h; cbn; try (split; now constructor). inversion Hh; subst. match goal with Q : rfc_unknown _ _ _ |- _ => inversion Q; subst end. split; (constructor; [|constructor]); [|now apply name_ok]. match goal with T : rfc_text_value _ _ _ _ |- _ => exact (value_ok _ _ _ _ (fun _ => HC) T) end. }
    destruct Q. auto. }
  destruct Y as [Y1 Y2]. apply Forall_app in Y2 as [Y2 Y3]. apply Forall_app in Y3 as [Y3 Y4]. destruct P, O. unfold entity_texts, entity_strings. rewrite !Forall_app. auto 20.
Qed.
End Texts.

(* ---- the two readings ---- *)
Lemma plain_ascii : forall v, plain v -> ascii v.
Proof. intros v. apply Forall_impl. intros c H. unfold ascii_byte. pr. Qed.
Lemma plain_utf8 : forall v, plain v -> utf8_valid v = true.
Proof. intros v H. now apply ascii_utf8, plain_ascii. Qed.
Lemma charset_utf8 : forall E, env_ok E -> forall cs raw v, charset_decodes (textcode E) cs raw v -> utf8_valid v = true.
Proof. intros E HE cs raw v H. destruct H; try assumption; apply (ok_textcode E HE). Qed.
Lemma parse_fields : forall E data e, env_ok E -> parse E data = Ok e -> exists fs b, (forall f, In f fs -> exists c, field_text E c f) /\ email_of E fs b e.
Proof.
  intros E data e HE H. pose proof (sound_parse E data HE) as S. rewrite H in S. destruct S as (fs & b & M & _ & HO). exists fs, b. split; [|exact HO].
  destruct M as [c fs c' b HM _]. exact (many_in _ _ _ _ HM).
Qed.
Lemma email_utf8 : forall E data e, env_ok E -> parse E data = Ok e -> Forall (fun v => utf8_valid v = true) (email_texts e ++ email_strings e).
Proof.
  intros E data e HE H. destruct (parse_fields E data e HE H) as (fs & b & HF & HO).
  destruct (email_ok (fun v => utf8_valid v = true) plain_utf8 utf8_app fs) with (E := E) (b := b) (e := e) as [R1 R2]; [|exact HO|].
  - intros f HI. destruct (HF f HI) as [c Hc]. eapply field_ok; [exact plain_utf8|exact utf8_app|apply (ok_unrecognized E HE)|intros _; exact (charset_utf8 E HE)|exact Hc].
  - apply Forall_app. split; [exact R1|]. eapply Forall_impl; [|exact R2]. exact plain_utf8.
Qed.
Lemma email_plain : forall E data e, env_ok E -> f_mime E = false -> parse E data = Ok e -> Forall (chars printable) (email_texts e ++ email_strings e).
Proof.
  intros E data e HE HM H. destruct (parse_fields E data e HE H) as (fs & b & HF & HO).
  destruct (email_ok plain (fun v h => h) plain_app fs) with (E := E) (b := b) (e := e) as [R1 R2]; [|exact HO|].
  - intros f HI. destruct (HF f HI) as [c Hc]. eapply field_ok; [auto|exact plain_app|apply (ok_unrecognized E HE)|congruence|exact Hc].
  - apply Forall_app. split; assumption.
Qed.
Lemma email_strings_plain : forall E data e, env_ok E -> parse E data = Ok e -> Forall (chars printable) (email_strings e).
Proof.
  intros E data e HE H. destruct (parse_fields E data e HE H) as (fs & b & HF & HO).
  apply (email_ok (fun v => utf8_valid v = true) plain_utf8 utf8_app fs) with (E := E) (b := b) (e := e); [|exact HO].
  intros f HI. destruct (HF f HI) as [c Hc]. eapply field_ok; [exact plain_utf8|exact utf8_app|apply (ok_unrecognized E HE)|intros _; exact (charset_utf8 E HE)|exact Hc].
Qed.
Lemma email_ascii : forall E data e, env_ok E -> f_mime E = false -> parse E data = Ok e -> Forall (chars (fun c => c < 128)) (email_texts e ++ email_strings e).
Proof. intros E data e HE HM H. eapply Forall_impl; [|exact (email_plain E data e HE HM H)]. exact plain_ascii. Qed.
Lemma entity_strings_ok : forall E data r, env_ok E -> raw_entity E data = Ok r -> Forall (fun v => utf8_valid v = true) (entity_texts r) /\ Forall (chars printable) (entity_strings r).
Proof.
  intros E data r HE H. pose proof (sound_raw_entity E data (ok_hash E HE)) as S. rewrite H in S. destruct S as (hs & b & (c & c' & _ & HM & _) & HP).
  eapply part_ok; [exact plain_utf8|exact utf8_app|exact (charset_utf8 E HE)|eauto|exact HP].
Qed.
Lemma parsed_strings_ok : forall E r t, env_ok E -> utf8_valid (e_subtype r) = true -> entity E r = Ok t -> Forall (fun v => utf8_valid v = true) (parsed_strings t).
Proof.
  intros E r t HE HS H. pose proof (sound_entity E r (ok_hash E HE)) as S. rewrite H in S. cbn in S. destruct S as [bd pre parts es _ _ _ HF|cs v _ _ HD| |]; cbn [parsed_strings].
  - constructor; [exact HS|]. clear H. induction HF as [|p x ps xs (hs & t' & (c & c' & _ & HM & _) & HP) _ IH]; cbn; [constructor|]. apply Forall_app. split; [|exact IH].
    destruct (part_ok (fun v => utf8_valid v = true) plain_utf8 utf8_app E hs t' x) as [R1 R2]; [exact (charset_utf8 E HE)|eauto|exact HP|]. apply Forall_app. split; [exact R1|]. eapply Forall_impl; [|exact R2]. exact plain_utf8.
  - repeat constructor; [exact HS|]. eapply charset_utf8; eauto.
  - constructor.
  - constructor.
Qed.
(* with mime, an encoded subject can hold a line end and what looks like another header *)
Lemma inject_witness : exists E data e v, env_ok E /\ f_mime E = true /\ parse E data = Ok e /\ subject e = Some v /\
  In v (email_texts e) /\ (exists a b, v = a ++ CRLF ++ b) /\ ~ Forall (chars printable) (email_texts e ++ email_strings e).
Proof.
  pose (mail := bs "From: a@b.c" ++ CRLF ++ bs "Date: 1 Jan 2020 10:00 +0000" ++ CRLF ++ bs "Subject: =?utf-8?q?a=0D=0ABcc:_z?=" ++ CRLF ++ CRLF ++ bs "hi").
  remember (parse env_mime mail) as r eqn:H. vm_compute in H. destruct r as [e| |]; [|discriminate H|discriminate H].
  assert (HS : subject e = Some (bs " a" ++ CRLF ++ bs "Bcc: z")) by (injection H as ->; vm_compute; reflexivity).
  assert (HI : In (bs " a" ++ CRLF ++ bs "Bcc: z") (email_texts e)) by (injection H as ->; vm_compute; left; reflexivity).
  exists env_mime, mail, e, (bs " a" ++ CRLF ++ bs "Bcc: z"). split; [exact env_mime_ok|]. split; [reflexivity|]. split; [rewrite H; vm_compute; reflexivity|].
  split; [exact HS|]. split; [exact HI|]. split; [exists (bs " a"), (bs "Bcc: z"); reflexivity|].
  intros HF. rewrite Forall_forall in HF. specialize (HF _ (in_or_app _ _ _ (or_introl HI))). unfold chars in HF. rewrite Forall_forall in HF.
  specialize (HF 13%N ltac:(vm_compute; tauto)). unfold printable, rfc_VCHAR, rfc_WSP in HF. lia.
Qed.

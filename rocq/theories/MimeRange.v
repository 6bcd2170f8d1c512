(* C61, one direction: every email returned with mime satisfies the conditions of MimeMailSpec.v. *)
From Coq Require Import Lia ZifyBool ZifyNat ZifyN.
From Verif Require Import Base Utf8 Utf8Facts CharSets Combinators Whitespace QuotedString Common Time Address Percent MimeFields Fields Message Entity Email Envs
  Rfc5322 Rfc2047 Post CodecSpec RfcFields SoundBase SoundTime SoundAddr TagNoCase SoundFields EmailSpec SoundMessage EmailProofs Steps Complete CompleteFields Forward ForwardText ForwardMime
  ForwardMimeFields ForwardTrace ForwardFields ForwardMessage HeaderFacts LocalFacts Writers WriteFacts TextFacts LineSpec LessExact MailSpec RangeFacts ExactSpec PhraseSpec MimeExactSpec MimeExactFacts
  ParamSpec DebugSpec DebugFacts DebugMore MimeMailSpec.
Local Open Scope N_scope.

(* ---- the body ---- *)
Lemma position_bound : forall l c p, position c l = Some p -> p < N.of_nat (length l).
Proof.
  induction l as [|x l IH]; intros c p H; [discriminate|]. cbn [position] in H. destruct (c =? x); [injection H as <-; cbn; lia|]. destruct (position c l) as [q|] eqn:Q; [|discriminate].
  injection H as <-. apply IH in Q. cbn [length]. lia.
Qed.
Definition small (s : symbol) : Prop := match s with V v => v < 64 | Pad => True end.
Lemma symbols_small : forall l, Forall small (symbols l).
Proof.
  induction l as [|c l IH]; cbn [symbols]; [constructor|]. destruct (b64_value c) as [v|] eqn:B; [constructor; [exact (position_bound _ _ _ B)|exact IH]|]. destruct (c =? 61); [constructor; [exact I|exact IH]|exact IH].
Qed.
Lemma octet1_small : forall a b, a < 64 -> b < 64 -> octet1 a b < 256.
Proof. intros a b Ha Hb. unfold octet1. apply N.div_lt_upper_bound; lia. Qed.
Definition small_state (s : b64_state) : Prop :=
  match s with G0 => True | G1 a => a < 64 | G2 a b => a < 64 /\ b < 64 | G3 a b _ => a < 64 /\ b < 64 | G3Pad a b => a < 64 /\ b < 64 end.
Lemma groups_wf : forall l s v, Forall small l -> small_state s -> b64_groups s l = Some v -> wf_bytes v.
Proof.
  induction l as [|x l IH]; intros s v Hl Hs H.
  - destruct s; try discriminate. injection H as <-. constructor.
  - apply Forall_inv in Hl as Hx. apply Forall_inv_tail in Hl. cbn [b64_groups] in H.
    assert (O : forall w, wf_bytes w -> option_map (app w) (b64_groups G0 l) = Some v -> wf_bytes v).
    { intros w Hw Q. destruct (b64_groups G0 l) as [u|] eqn:G; [|discriminate]. injection Q as <-. apply Forall_app. split; [exact Hw|]. exact (IH G0 u Hl I G). }
    assert (M : forall y, wf_byte (y mod 256)) by (intros y; apply N.mod_lt; lia).
    destruct s as [|a|a b|a b c|a b]; destruct x as [y|]; cbn in Hs, Hx; try discriminate H;
      try (destruct Hs as [Hs1 Hs2]; pose proof (octet1_small a b Hs1 Hs2) as M1);
      try (refine (IH _ v Hl _ H); cbn; auto; fail); try (refine (O _ _ H); repeat constructor; first [exact M1|apply M]).
Qed.
Lemma b64_wf : forall l v, b64_decoding l = Some v -> wf_bytes v.
Proof. intros l v H. exact (groups_wf (symbols l) G0 v (symbols_small l) I H). Qed.
Lemma hex_small : forall c x, hex_value c = Some x -> x < 16.
Proof.
  intros c x H. unfold hex_value in H. destruct (position c (bs "0123456789ABCDEF")) as [y|] eqn:P; [injection H as ->; exact (position_bound _ _ _ P)|exact (position_bound _ _ _ H)].
Qed.
Lemma escape_wf : forall a b, wf_bytes (CodecSpec.escape a b).
Proof.
  intros a b. assert (R : wf_bytes REPLACEMENT) by (repeat constructor; unfold wf_byte; lia). unfold CodecSpec.escape.
  destruct (hex_value a) as [x|] eqn:X; [|exact R]. destruct (hex_value b) as [y|] eqn:Y; [|exact R]. apply hex_small in X. apply hex_small in Y. constructor; [unfold wf_byte; lia|constructor].
Qed.
Lemma qp_wf : forall n l, (length l < n)%nat -> wf_bytes (qp_decoding l).
Proof.
  assert (R : wf_bytes REPLACEMENT) by (repeat constructor; unfold wf_byte; lia).
  induction n as [|n IH]; intros l Hl; [lia|]. destruct l as [|c r]; [constructor|]. cbn [length] in Hl. cbn [qp_decoding]. destruct (c =? 61) eqn:C.
  - destruct r as [|a [|b r]]; [constructor; [unfold wf_byte; lia|apply (IH []); cbn; lia]|constructor; [unfold wf_byte; lia|apply (IH [a]); cbn in *; lia]|]. cbn [length] in Hl. destruct ((a =? 13) && (b =? 10)).
    + apply IH. lia.
    + apply Forall_app. split; [apply escape_wf|apply IH; lia].
  - destruct (((33 <=? c) && (c <=? 126)) || (c =? 32) || (c =? 9)) eqn:P; [constructor; [unfold wf_byte; lia|apply IH; lia]|]. destruct r as [|d r].
    + apply Forall_app. split; [exact R|constructor].
    + cbn [length] in Hl. destruct ((c =? 13) && (d =? 10)).
      * constructor; [unfold wf_byte; lia|]. constructor; [unfold wf_byte; lia|]. apply IH. lia.
      * apply Forall_app. split; [exact R|apply IH; cbn [length]; lia].
Qed.
Lemma transfer_wf : forall enc b v, wf_bytes b -> transfer_decoded enc b v -> wf_bytes v.
Proof. intros enc b v Hb H. destruct H; auto; [eapply b64_wf; eauto|eapply qp_wf; eauto]. Qed.

(* ---- names and parameters ---- *)
Lemma fold_idem : forall c, fold_case (fold_case c) = fold_case c.
Proof. intros c. unfold fold_case. destruct ((65 <=? c) && (c <=? 90)) eqn:H; [|now rewrite H]. replace ((65 <=? c + 32) && (c + 32 <=? 90)) with false by lia. reflexivity. Qed.
Lemma fold_list_idem : forall l, map fold_case (map fold_case l) = map fold_case l.
Proof. intros l. rewrite map_map. apply map_ext. exact fold_idem. Qed.
Lemma token_char_iff : forall c, mime_token_char c <-> 33 <= c <= 126 /\ c <> 34 /\ c <> 40 /\ c <> 41 /\ c <> 44 /\ c <> 47 /\ c <> 58 /\ c <> 59 /\ c <> 60 /\ c <> 61 /\ c <> 62 /\ c <> 63 /\ c <> 64 /\ c <> 91 /\ c <> 92 /\ c <> 93.
Proof. intros c. unfold mime_token_char. cbn. lia. Qed.
Lemma fold_token_char : forall c, mime_token_char c -> mime_token_char (fold_case c).
Proof. intros c. rewrite !token_char_iff. unfold fold_case. destruct ((65 <=? c) && (c <=? 90)) eqn:H; lia. Qed.
Lemma fold_token : forall c, mime_token c -> lower_token (map fold_case c).
Proof.
  intros c [Hn H]. split; [|apply fold_list_idem]. split; [destruct c; [congruence|discriminate]|]. apply Forall_map. eapply Forall_impl; [|exact H]. exact fold_token_char.
Qed.
Lemma fold_star : forall c, fold_case c = 42 -> c = 42.
Proof. intros c. unfold fold_case. destruct ((65 <=? c) && (c <=? 90)) eqn:H; lia. Qed.
Lemma fold_no_star : forall a, ~ In 42 a -> ~ In 42 (map fold_case a).
Proof. intros a H X. apply in_map_iff in X as (c & Hc & X). apply fold_star in Hc. now subst. Qed.
Lemma fold_digits : forall a d, map fold_case a = d -> chars rfc_DIGIT d -> a = d.
Proof.
  induction a as [|c a IH]; intros d <- H; [reflexivity|]. apply Forall_inv in H as Hc. apply Forall_inv_tail in H. cbn [map] in *. f_equal; [|apply IH; auto].
  unfold rfc_DIGIT, fold_case in Hc |- *. destruct ((65 <=? c) && (c <=? 90)) eqn:Q; lia.
Qed.
Lemma fold_fixed : forall a d, map fold_case a = d -> chars (fun c => c < 97) d -> a = d.
Proof.
  induction a as [|c a IH]; intros d <- H; [reflexivity|]. apply Forall_inv in H as Hc. apply Forall_inv_tail in H. cbn [map] in *. f_equal; [|apply IH; auto].
  unfold fold_case in Hc |- *. destruct ((65 <=? c) && (c <=? 90)) eqn:Q; lia.
Qed.
Lemma fold_indexed : forall n x, mime_token n -> indexed_param_name (map fold_case n) x -> exists y, indexed_param_name n y.
Proof.
  intros n x [_ Hn] H. inversion H as [a c i e Ha Hc Hx]; subst. symmetry in Hx. apply map_eq_app in Hx as (n1 & n2 & -> & H1 & H2). assert (n2 = c ++ (if e then bs "*" else [])).
  { apply fold_fixed; [exact H2|]. apply Forall_app. split; [|destruct e; repeat constructor; vm_compute; reflexivity]. destruct Hc as [|c [_ Hc] _]; [constructor|]. constructor; [vm_compute; reflexivity|]. eapply Forall_impl; [|exact Hc]. unfold rfc_DIGIT. intros; lia. }
  subst n2. exists (map fold_case n1, i, e). constructor; [|exact Hc]. apply Forall_app in Hn as [Hn _]. destruct Ha as [Ha1 Ha2]. split; [intros ->; now apply Ha1|].
  rewrite <- H1 in Ha2. apply Forall_map in Ha2. apply Forall_forall. intros k Hk. unfold chars in *. rewrite Forall_forall in Hn, Ha2. split; [auto|]. intros ->. now apply (Ha2 42 Hk).
Qed.
Lemma starless : forall a, chars1 (fun x => mime_token_char x /\ x <> 42) a -> lower_token (map fold_case a) /\ ~ In 42 (map fold_case a).
Proof.
  intros a [Hn H]. split; [apply fold_token; split; [exact Hn|]; eapply Forall_impl; [|exact H]; intros c [? ?]; assumption|]. apply fold_no_star. intros X. unfold chars in H. rewrite Forall_forall in H. now apply (H 42 X).
Qed.
(* the parameters of a header as written *)
Definition named (p : param) : Prop := let '(a, i, e, v) := p in (exists n, clear_param_name n (a, i, e)) /\ plain v.
Lemma named_plain : forall raw, Forall named raw -> raw_ok raw.
Proof.
  intros raw. apply Forall_impl. intros [[[a i] e] v] [[n H] Hv]. split; [|exact Hv]. inversion H as [n' v' H'|a' Ha Hi]; subst.
  - inversion H' as [a0 c0 i0 e0 Ha Hc]; subst. apply plain_fold. destruct Ha as [_ Ha]. eapply plain_chars; [|exact Ha]. intros k [[Hk _] _]. pr.
  - now apply plain_fold, plain_token.
Qed.
Section Texts.
Variable E : env.
Hypothesis HE : env_ok E.
Lemma params_range : forall raw l, Forall named raw -> params_value (textcode E) raw l -> parameters_value l.
Proof.
  intros raw l HR H n v G. pose proof (H n) as P. rewrite G in P.
  destruct (param_value_ok _ plain_utf8 utf8_app (textcode E) (charset_utf8 E HE) raw n v (named_plain raw HR) P) as [_ Hv]. rewrite Forall_forall in HR.
  inversion P as [S Ev|[e t] v0 cs r S F T Ev]; subst.
  - unfold plain_value in Ev. apply last_some_in in Ev as ([[[n' i] e'] v'] & HI & Ev). destruct (bytes_eqb n n') eqn:B; [|discriminate]. apply bytes_eqb_true in B. subst n'. destruct i as [k|]; [discriminate|]. injection Ev as ->.
    destruct (HR _ HI) as [[n0 Hn] Hp]. inversion Hn as [m w H'|a Ha Hi]; subst.
    + inversion H' as [a c i e Ha Hc]; subst. destruct (starless a Ha). split; [assumption|]. left. split; assumption.
    + split; [now apply fold_token|]. right. split; [|exact Hp]. intros x X. destruct (fold_indexed _ x Ha X) as [y Y]. exact (Hi y Y).
  - unfold segment in S. apply last_some_in in S as ([[[n' i] e'] v'] & HI & S). destruct (bytes_eqb n n') eqn:B; [|discriminate]. apply bytes_eqb_true in B. subst n'. destruct i as [k|]; [|discriminate].
    destruct (HR _ HI) as [[n0 Hn] Hp]. inversion Hn as [m w H'|a Ha Hi]; subst. inversion H' as [a c i e0 Ha Hc]; subst. destruct (starless a Ha). split; [assumption|]. left. split; assumption.
Qed.
Lemma keyword_range : forall A (table : list (bytes * A)) other c a, clear_keyword table other c a -> (forall n x, In (n, x) table -> map fold_case n = n) ->
  (exists n, In (n, a) table) \/ exists n, a = other n /\ other_keyword table n.
Proof.
  intros A table other c a [n c' a' Hi _|c' Ht Hp] HL; [eauto|]. right. eexists. split; [reflexivity|]. split; [now apply fold_token|]. intros k x y Hk X.
  apply map_eq_app in X as (c1 & c2 & -> & H1 & _). apply (Hp k x c1 c2 Hk eq_refl). exact (eq_trans H1 (eq_sym (HL _ _ Hk))).
Qed.
Lemma type_range : forall c t, clear_keyword mime_types CUnknown c t -> type_name t.
Proof.
  intros c t H. apply keyword_range in H as [[n Hn]|(n & -> & Hn)].
  - cbn in Hn. repeat (destruct Hn as [[= <- <-]|Hn]; [exact I|]). destruct Hn.
  - exact Hn.
  - intros n x Hn. cbn in Hn. repeat (destruct Hn as [[= <- <-]|Hn]; [reflexivity|]). destruct Hn.
Qed.
Lemma kind_range : forall c t, clear_keyword mime_dispositions DUnknown c t -> disposition_name t.
Proof.
  intros c t H. apply keyword_range in H as [[n Hn]|(n & -> & Hn)].
  - cbn in Hn. repeat (destruct Hn as [[= <- <-]|Hn]; [exact I|]). destruct Hn.
  - exact Hn.
  - intros n x Hn. cbn in Hn. repeat (destruct Hn as [[= <- <-]|Hn]; [reflexivity|]). destruct Hn.
Qed.
Lemma clear_value_plain : forall c v, clear_param_value c v -> plain v.
Proof. intros c v [c' H|b v' H]; [now apply plain_token|eapply plain_qbody; eauto]. Qed.
Lemma mime_value_plain : forall q c v, mime_value q c v -> plain v.
Proof. intros q c v [c' H|c' v' H]; [now apply plain_token|eapply plain_quoted; eauto]. Qed.
Lemma items_in : forall A (P : bytes -> bool -> bytes -> A -> Prop) rest q c l, items P rest q c l -> forall a, In a l -> exists r q' c', P r q' c' a.
Proof.
  intros A P rest q c l H. induction H as [|q c a H|q q' c a cs b l H Hs IH]; intros x Hx; [destruct Hx|destruct Hx as [<-|[]]; eauto|]. destruct Hx as [<-|Hx]; eauto.
Qed.
Lemma content_type_range : forall q t x k s l, type_value E CRLF q t x (k, s, l) -> type_name k /\ lower_token s /\ parameters_value l.
Proof.
  intros q t x k s l H. inversion H as [w c t' s' ps raw l' x' q' Hw Hc Hs Hi Hp Hx]; subst. split; [eapply type_range; eauto|]. split; [now apply fold_token|]. eapply params_range; [|exact Hp].
  apply Forall_forall. intros p Hin. destruct (items_in _ _ _ _ _ _ Hi p Hin) as (r & q1 & c1 & [w1 w2 n a i e q2 c2 v _ _ Hn Hv]). split; [eauto|eapply mime_value_plain; eauto].
Qed.
Lemma clear_type_range : forall c k s l, clear_content_type E c (k, s, l) -> type_name k /\ lower_token s /\ parameters_value l.
Proof.
  intros c k s l H. inversion H as [w c' t' s' ps raw l' x' Hw Hc Hs Hi _ Hp Hx]; subst. split; [eapply type_range; eauto|]. split; [now apply fold_token|]. eapply params_range; [|exact Hp].
  apply Forall_forall. intros p Hin. destruct (many_in _ _ _ _ Hi p Hin) as (c1 & [w1 w2 n a i e c2 v _ _ Hn Hv]). split; [eauto|eapply clear_value_plain; eauto].
Qed.
(* what the items of a Content-Disposition header are *)
Definition item_range (i : disposition_item) : Prop :=
  match i with DFilename v => plain v | DCreation d | DModification d | DRead d => date_in_range d | DParam p => named p end.
Lemma items_disposition : forall k l r, disposition_name k -> Forall item_range l -> params_value (textcode E) (params_of l) r -> disposition_range
  {| disposition_type := k;
     disp_filename := last_some (fun i => match i with DFilename v => Some v | _ => None end) l;
     disp_creation_date := last_some (fun i => match i with DCreation v => Some v | _ => None end) l;
     disp_modification_date := last_some (fun i => match i with DModification v => Some v | _ => None end) l;
     disp_read_date := last_some (fun i => match i with DRead v => Some v | _ => None end) l;
     disp_unstructured := r |}.
Proof.
  intros k l r Hk Hl Hr. assert (HF := Hl). rewrite Forall_forall in Hl. constructor; cbn [disposition_type disp_filename disp_creation_date disp_modification_date disp_read_date disp_unstructured]; [exact Hk|..].
  1-4: match goal with |- optional_value _ _ ?o => destruct o as [v|] eqn:L; [|exact I] end; split; [reflexivity|]; apply last_some_in in L as (a & Ha & L); apply Hl in Ha; destruct a; try discriminate L; injection L as ->; exact Ha.
  eapply params_range; [|exact Hr]. clear Hl Hr Hk. unfold params_of. induction HF as [|a l Ha _ IH]; [constructor|]. cbn [map concat]. apply Forall_app. split; [|exact IH]. destruct a; constructor; [exact Ha|constructor].
Qed.
Lemma disposition_field_range : forall q t x d, disposition_value E CRLF q t x d -> disposition_range d.
Proof.
  intros q t x d H. destruct H as [w c k is l r x q Hw Hk Hi Hp Hx]. apply items_disposition; [eapply kind_range; eauto| |exact Hp].
  apply Forall_forall. intros a Ha. destruct (items_in _ _ _ _ _ _ Hi a Ha) as (z & q1 & c1 & J). destruct J as [w1 w2 n q2 c2 v _ _ _ Hv|name mk w1 w2 n c2 v Hm _ _ _ Hv|w1 w2 n b i e q2 c2 v _ _ Hn Hv _ _]; cbn [item_range].
  - eapply mime_value_plain; eauto.
  - cbn in Hm. destruct Hv as [_ Hv]. repeat (destruct Hm as [[= <- <-]|Hm]; [exact Hv|]). destruct Hm.
  - split; [eauto|eapply mime_value_plain; eauto].
Qed.
Lemma clear_disposition_range : forall c d, clear_disposition E c d -> disposition_range d.
Proof.
  intros c d H. destruct H as [w c k is l r x Hw Hk Hi _ Hp Hx]. apply items_disposition; [eapply kind_range; eauto| |exact Hp].
  apply Forall_forall. intros a Ha. destruct (many_in _ _ _ _ Hi a Ha) as (c1 & J). destruct J as [w1 w2 n c2 v _ _ _ Hv|w1 w2 n c2 v _ _ _ Hv|w1 w2 n c2 v _ _ _ Hv|w1 w2 n c2 v _ _ _ Hv|w1 w2 n b i e c2 v _ _ Hn Hv _]; cbn [item_range]; try apply Hv.
  - eapply clear_value_plain; eauto.
  - split; [eauto|eapply clear_value_plain; eauto].
Qed.

(* ---- phrases and addresses ---- *)
Lemma encoded_range : forall c v, rfc_encoded_word (textcode E) c v -> utf8_text v.
Proof. intros c v [charset lang e text raw v' _ _ _ _ H]. eapply charset_utf8; eauto. Qed.
Lemma words_range : forall rest k k' c vs, read_words (textcode E) rest k k' c vs -> Forall utf8_text vs.
Proof.
  intros rest k k' c vs H. induction H as [|s _|k k' s e v c vs _ He _ IH|k k' s a c vs _ [_ Ha] _ _ _ IH|k k' s b v c vs _ Hb _ IH]; constructor; auto.
  - eapply encoded_range; eauto.
  - now apply plain_utf8, plain_atext.
  - eapply plain_utf8, plain_qbody; eauto.
Qed.
Lemma name_range : forall rest k c vs, read_phrase (textcode E) rest k c vs -> utf8_name vs.
Proof. intros rest k c vs [Hn H]. split; [exact Hn|eapply words_range; eauto]. Qed.
Variable compat : bool.
Lemma box_range : forall rest c m, read_mailbox (textcode E) compat rest c m -> utf8_mailbox m.
Proof. intros rest c m [k c1 n c2 a H1 H2|c' a H|c' a H _]; (split; cbn; [eauto using address_value, angle_value|auto]). eapply name_range; eauto. Qed.
Lemma comma_range : forall A (P : bytes -> bytes -> A -> Prop) (W : A -> Prop), (forall r c a, P r c a -> W a) -> forall rest c l, comma_read P rest c l -> some_of W l.
Proof. intros A P W H rest c l M. split; [destruct M; discriminate|]. induction M; constructor; eauto. Qed.
Lemma boxes_range : forall rest c l, read_mailboxes (textcode E) compat rest c l -> some_of utf8_mailbox l.
Proof. intros rest c l H. eapply comma_range; [|exact H]. exact box_range. Qed.
Lemma target_range : forall rest c a, read_address (textcode E) compat rest c a -> utf8_recipient a.
Proof.
  intros rest c a [c' m H|k c1 n c2 l r H1 H2 H3 _]; [eapply box_range; eauto|]. split; [eapply name_range; eauto|]. destruct H2 as [c2 l H2|c2 H2]; [now destruct (boxes_range _ _ _ H2)|constructor].
Qed.
Lemma targets_range : forall rest c l, read_addresses (textcode E) compat rest c l -> some_of utf8_recipient l.
Proof. intros rest c l H. eapply comma_range; [|exact H]. exact target_range. Qed.
Lemma blind_range : forall rest c l, read_bcc (textcode E) compat rest c l -> Forall utf8_recipient l.
Proof. intros rest c l [c' l' H|c' H]; [now destruct (targets_range _ _ _ H)|constructor]. Qed.
Lemma words_list_range : forall rest k c l, read_keywords (textcode E) rest k c l -> Forall utf8_name l.
Proof. intros rest k c l H. induction H; constructor; eauto using name_range. Qed.
End Texts.
Lemma clear_text_range : forall E, env_ok E -> forall c v, clear_text (textcode E) c v -> utf8_text v.
Proof. intros E HE c v H. apply clear_text_sub in H. eapply mime_text_ok; [exact plain_utf8|exact utf8_app|exact (charset_utf8 E HE)|exact H]. Qed.
Lemma phrase_resent_range : forall E, env_ok E -> forall c t, phrase_resent E c t -> utf8_resent (f_compatibility_fixes E) t.
Proof.
  intros E HE c t H. destruct H as [c v H|c v H|c v H|c v H|c v H|c v H|c v H]; apply header_inv in H as [c' [H _]]; cbn.
  - now destruct H.
  - eapply boxes_range; eauto.
  - eapply box_range; eauto.
  - eapply targets_range; eauto.
  - eapply targets_range; eauto.
  - eapply blind_range; eauto.
  - eapply id_range; eauto.
Qed.
Lemma clear_token_range : forall b c t, clear_token b c t -> token_value t.
Proof.
  intros b c t [c' [_ H]|c' v H|c' a H|c' H _|c' v H]; cbn.
  - now apply plain_atext.
  - eapply plain_qbody; eauto.
  - eapply address_value; eauto.
  - eapply dtext_dot_text; eauto.
  - clear - H. induction H; [constructor|]. constructor; auto.
Qed.
Lemma clear_received_range : forall b c r, clear_received b c r -> received_ok r.
Proof.
  intros b c r [c' d [_ Hd]|w c' l c'' d _ H [_ Hd]]; (split; cbn; [|exact Hd]); [constructor|]. induction H; repeat constructor; eauto using clear_token_range.
Qed.
Lemma mime_block_range : forall E, env_ok E -> forall c p r l, mime_block E c (FTrace p r l) -> utf8_block (f_compatibility_fixes E) (p, r, l).
Proof.
  intros E HE c p r l H. inversion H as [c1 p' c2 r' c3 l' H1 Hn H2 H3]; subst. split; [|split; [split; [exact Hn|]|]].
  - destruct H1 as [|c p H1]; [exact I|]. apply header_inv in H1 as [c' [H1 _]]. exact (path_range _ _ _ H1).
  - eapply many_value; [|exact H2]. intros c' a Ha. apply header_inv in Ha as [c'' [Ha _]]. eapply clear_received_range; eauto.
  - eapply many_value; [|exact H3]. intros. eapply phrase_resent_range; eauto.
Qed.

(* ---- headers ---- *)
Definition mime_range (E : env) (f : field) : Prop :=
  match f with
  | FDate d => f_date E = true /\ date_in_range d
  | FFrom l => f_from E = true /\ some_of utf8_mailbox l
  | FSender m => f_sender E = true /\ utf8_mailbox m
  | FReplyTo l => f_reply_to E = true /\ some_of utf8_recipient l
  | FTo l => f_to E = true /\ some_of utf8_recipient l
  | FCc l => f_cc E = true /\ some_of utf8_recipient l
  | FBcc l => f_bcc E = true /\ Forall utf8_recipient l
  | FMessageId i => f_message_id E = true /\ id_value (f_compatibility_fixes E) i
  | FInReplyTo l => f_in_reply_to E = true /\ some_of (id_value (f_compatibility_fixes E)) l
  | FReferences l => f_references E = true /\ some_of (id_value (f_compatibility_fixes E)) l
  | FSubject s => f_subject E = true /\ utf8_text s
  | FComments s => f_comments E = true /\ utf8_text s
  | FKeywords l => f_keywords E = true /\ Forall utf8_name l
  | FMimeVersion _ _ | FContentTransferEncoding _ => True
  | FContentType t s l => type_name t /\ lower_token s /\ parameters_value l
  | FContentId i => id_value (f_compatibility_fixes E) i
  | FContentDescription s => utf8_text s
  | FContentDisposition d => disposition_range d
  | FTrace p r l => f_trace E = true /\ utf8_block (f_compatibility_fixes E) (p, r, l)
  | FUnknown n v => utf8_unknown E (n, v)
  end.
Lemma unknown_text_range : forall E, env_ok E -> forall t v, clear_text_value (f_unrecognized_headers E) (textcode E) t v -> if f_unrecognized_headers E then utf8_text v else text_line v.
Proof. intros E HE t v H. destruct (f_unrecognized_headers E); cbn in H; [eapply clear_text_range; eauto|exact (text_range _ _ H)]. Qed.
Lemma unknown_readable : forall E t v, clear_text_value (f_unrecognized_headers E) (textcode E) t v -> exists s, clear_text (textcode E) t s.
Proof. intros E t v H. destruct (f_unrecognized_headers E); cbn in H; [eauto|eapply clear_text_exists; eauto]. Qed.
Lemma mime_field_range : forall E, env_ok E -> f_mime E = true -> forall c f, mime_field E c f -> mime_range E f.
Proof.
  intros E HE HM c0 f0 [c' f' H NP|c' f' H|n q t x k s l Hn H|n q t x d Hn H].
  - destruct H as [c v Hf H|c v Hf H|c v Hf H|c v Hf H|c v Hf H|c v Hf H|c v Hf H|c v Hf H|c v Hf H|c v Hf H|c v Hf H|c v Hf H|c v Hf H
     |c x y Hf H|c t s p Hf H|c v Hf H|c v Hf H|c v Hf H|c v Hf H|c n v H]; try (exfalso; apply NP; exact I); cbn [mime_range];
    try (apply header_inv in H as [c'' H]).
    + split; [exact Hf|]. apply H.
    + split; [exact Hf|]. destruct H as [H _]. eapply id_range; eauto.
    + split; [exact Hf|]. destruct H as [H _]. eapply ids_range; eauto.
    + split; [exact Hf|]. destruct H as [H _]. eapply ids_range; eauto.
    + split; [exact Hf|]. rewrite HM in H. eapply clear_text_range; eauto.
    + split; [exact Hf|]. rewrite HM in H. eapply clear_text_range; eauto.
    + exact I.
    + eapply clear_type_range; eauto.
    + exact I.
    + destruct H as [H _]. eapply id_range; eauto.
    + eapply clear_text_range; eauto.
    + eapply clear_disposition_range; eauto.
    + inversion H as [n' c9 v' Hn Hk Hv]; subst. split; [exact Hn|]. split; [eapply unknown_text_range; eauto|]. unfold known_names in Hk. cbn [fst snd].
      split; [|split]; [intros F; apply Hk; in_names F|intros F; apply Hk; in_names F|apply Hk; in_names HM].
  - destruct H as [c l Hf H|c m Hf H|c l Hf H|c l Hf H|c l Hf H|c l Hf H|c k l Hf H]; cbn [mime_range]; (split; [exact Hf|]); apply header_inv in H as [c'' [H _]].
    + eapply boxes_range; eauto.
    + eapply box_range; eauto.
    + eapply targets_range; eauto.
    + eapply targets_range; eauto.
    + eapply targets_range; eauto.
    + eapply blind_range; eauto.
    + eapply words_list_range; eauto.
  - cbn. eapply content_type_range; eauto.
  - cbn. eapply disposition_field_range; eauto.
Qed.
Lemma mime_read_range : forall E, env_ok E -> f_mime E = true -> forall c f, mime_read E c f -> mime_range E f.
Proof.
  intros E HE HM c0 f0 [c' f' H|n t v Hn Hv HF HC]; [eapply mime_field_range; eauto|]. cbn. split; [exact Hn|]. split; [eapply unknown_text_range; eauto|]. cbn [fst snd].
  destruct (unknown_readable E t v Hv) as [s Hs]. assert (X : forall (name : string), same_nocase n (bs name) -> rfc_header name (clear_text (textcode E)) (n ++ bs ":" ++ t ++ CRLF) s) by (intros name H; now apply header_intro).
  split; [|split].
  - intros F H. apply (HF (FSubject s)). apply mime_clear; [|cbn; tauto]. apply clear_subject; [exact F|]. rewrite HM. now apply X.
  - intros F H. apply (HF (FComments s)). apply mime_clear; [|cbn; tauto]. apply clear_comments; [exact F|]. rewrite HM. now apply X.
  - intros H. apply (HF (FContentDescription s)). apply mime_clear; [|cbn; tauto]. apply clear_content_description; [exact HM|]. now apply X.
Qed.

(* ---- emails ---- *)
Lemma pick_one : forall A (sel : field -> option A) E fs (on : bool) (W : A -> Prop), (forall f, In f fs -> mime_range E f) -> (forall f a, sel f = Some a -> mime_range E f -> on = true /\ W a) ->
  optional_value on W (only sel fs).
Proof. intros A sel E fs on W HF HS. destruct (only sel fs) as [a|] eqn:O; [|exact I]. apply only_some in O as (f & Hf & S). cbn. eauto. Qed.
Lemma pick_all : forall A (sel : field -> option A) E fs (on : bool) (W : A -> Prop), (forall f, In f fs -> mime_range E f) -> (forall f a, sel f = Some a -> mime_range E f -> on = true /\ W a) ->
  Forall W (pick sel fs) /\ (on = false -> pick sel fs = []).
Proof.
  intros A sel E fs on W HF HS. split.
  - apply Forall_forall. intros a Ha. apply in_pick in Ha as (f & Hf & S). now apply (HS f a S (HF f Hf)).
  - intros ->. apply pick_nil. intros f Hf. destruct (sel f) as [a|] eqn:S; [|reflexivity]. destruct (HS f a S (HF f Hf)). discriminate.
Qed.
Lemma mime_blocks_in : forall E c fs, mime_blocks E c fs -> forall f, In f fs -> exists c' p r l, f = FTrace p r l /\ mime_block E c' f.
Proof. intros E c fs H. induction H as [|c f cs fs H Hs Hr IH]; intros g Hg; [destruct Hg|]. destruct Hg as [<-|Hg]; [|auto]. inversion H; subst. eauto 8. Qed.
Lemma mime_blocks_parted : forall E c fs, mime_blocks E c fs -> parted (pick is_trace fs).
Proof.
  intros E c fs H. induction H as [|c f cs fs H Hs Hr IH]; [constructor|]. inversion H; subst. destruct Hr as [|c' f' cs' fs' H' Hs' Hr']; [constructor|]. inversion H'; subst. cbn in *. constructor; assumption.
Qed.
Ltac sel1 := let f := fresh in let a := fresh in let X := fresh in intros f a X ?; destruct f; try discriminate X; injection X as <-; cbn in *; auto.
Theorem release_range : forall E data e, env_ok E -> f_mime E = true -> debug E = false -> wf_bytes data -> parse E data = Ok e -> mime_mail_value E e.
Proof.
  intros E data e HE HM HD HW H. destruct (mime_parse_back E HE HM HD data e H) as (fs & b & HR & HO). destruct HR as [c1 t c2 l c3 b HT HT0 _ _ HL HB].
  assert (HX : forall f, In f (t ++ l) -> mime_range E f).
  { intros f Hf. apply in_app_or in Hf as [Hf|Hf].
    - destruct (mime_blocks_in _ _ _ HT f Hf) as (c' & p & r & l' & -> & X). cbn. split; [|eapply mime_block_range; eauto]. destruct (f_trace E); [reflexivity|]. rewrite (HT0 eq_refl) in Hf. destruct Hf.
    - destruct (many_in _ _ _ _ HL f Hf) as (c' & X). eapply mime_read_range; eauto. }
  assert (PT : pick is_trace l = []).
  { apply pick_nil. intros f Hf. destruct (many_in _ _ _ _ HL f Hf) as (c' & X). destruct X as [c'' f' [c3' f3 X _|c3' f3 X|? ? ? ? ? ? ? ? ?|? ? ? ? ? ? ?]|? ? ? ? ? ? ?]; try reflexivity; destruct X; reflexivity. }
  assert (FR : forall l0, only is_from (t ++ l) = Some l0 -> some_of utf8_mailbox l0).
  { intros l0 X. apply only_some in X as (f & Hf & X). specialize (HX f Hf). destruct f; try discriminate X. injection X as <-. apply HX. }
  destruct HO as [O1 O2 O3 O4 O5 O6 O7 O8 O9 O10 O11 O12 O13 O14 O15 O16 O17 O18]. rewrite HM in O17, O18. constructor.
  - destruct (f_from E); [now apply FR|exact O2].
  - destruct (f_sender E) eqn:F; [|exact O4]. destruct O4 as [O4 N]. destruct (sender e) as [m|]; [|congruence]. exists m. split; [reflexivity|]. rewrite (ok_sender E HE F) in O2.
    destruct (only is_sender (t ++ l)) as [m'|] eqn:S; cbn in O4.
    + injection O4 as ->. apply only_some in S as (f & Hf & S). specialize (HX f Hf). destruct f; try discriminate S. injection S as ->. apply HX.
    + destruct (FR _ O2) as [_ W]. destruct (from e) as [|m' [|? ?]]; try discriminate O4. injection O4 as <-. now apply Forall_inv in W.
  - destruct (f_date E); [|exact O3]. destruct O3 as [O3 N]. destruct (date_of e) as [d|]; [|congruence]. exists d. split; [reflexivity|]. apply only_some in O3 as (f & Hf & S). specialize (HX f Hf). destruct f; try discriminate S. injection S as ->. apply HX.
  - rewrite O5. eapply pick_one; [exact HX|sel1].
  - rewrite O6. eapply pick_one; [exact HX|sel1].
  - rewrite O7. eapply pick_one; [exact HX|sel1].
  - rewrite O8. eapply pick_one; [exact HX|sel1].
  - rewrite O12. eapply pick_one; [exact HX|sel1].
  - rewrite O9. eapply pick_one; [exact HX|sel1].
  - rewrite O10. eapply pick_one; [exact HX|sel1].
  - rewrite O11. eapply pick_one; [exact HX|sel1].
  - rewrite O13. eapply pick_all; [exact HX|sel1].
  - rewrite O14. destruct (pick_all _ is_keywords E (t ++ l) (f_keywords E) (Forall utf8_name) HX) as [K1 K2]; [sel1|]. split; [|intros F; now rewrite (K2 F)]. apply Forall_concat. exact K1.
  - rewrite O15. destruct (pick_all _ is_trace E (t ++ l) (f_trace E) (utf8_block (f_compatibility_fixes E)) HX) as [K1 K2]; [sel1|]. split; [exact K1|]. split; [|exact K2].
    rewrite pick_app, PT, app_nil_r. eapply mime_blocks_parted; eauto.
  - rewrite O16. eapply (pick_all _ is_unknown E (t ++ l) true); [exact HX|]. intros f a X ?. destruct f; try discriminate X. injection X as <-. auto.
  - exact O17.
  - destruct O18 as (v & Hv & ->). eexists. split; [reflexivity|].
    assert (TY : optional_value true (fun x => type_name (fst (fst x)) /\ lower_token (snd (fst x)) /\ parameters_value (snd x)) (only is_content_type (t ++ l))) by (eapply pick_one; [exact HX|sel1]).
    assert (TY' : type_name (fst (fst (type_of (only is_content_type (t ++ l))))) /\ lower_token (snd (fst (type_of (only is_content_type (t ++ l))))) /\ parameters_value (snd (type_of (only is_content_type (t ++ l))))).
    { destruct (only is_content_type (t ++ l)) as [x|]; [apply TY|]. cbn [type_of fst snd]. split; [exact I|]. assert (LT : forall n, n = bs "plain" \/ n = bs "charset" -> lower_token n /\ ~ In 42 n).
      { intros n [->| ->]; (split; [split; [|reflexivity]; split; [discriminate|]; repeat constructor; try (vm_compute; (discriminate || reflexivity || intuition discriminate))|intros X; cbn in X; intuition discriminate]). }
      split; [now apply LT; left|]. intros n v' G. cbn [map_get fst snd] in G. destruct (bytes_eqb n (bs "charset")) eqn:B; [|discriminate]. apply bytes_eqb_true in B. subst n. injection G as <-.
      destruct (LT (bs "charset") (or_intror eq_refl)) as [L1 L2]. split; [exact L1|]. left. split; [exact L2|]. reflexivity. }
    destruct TY' as (T1 & T2 & T3). constructor; cbn [e_mime_type e_subtype e_description e_id e_parameters e_disposition e_value e_additional_headers]; auto.
    + eapply pick_one; [exact HX|sel1].
    + eapply pick_one; [exact HX|sel1].
    + eapply pick_one; [exact HX|sel1].
    + destruct HB as [|b]; [subst; constructor|]. eapply transfer_wf; [|exact Hv]. apply Forall_app in HW as [_ HW]. apply Forall_app in HW as [_ HW]. apply Forall_app in HW as [_ HW]. try apply Forall_app in HW as [_ HW]. exact HW.
Qed.
Theorem mime_mail_range : forall E data e, env_ok E -> f_mime E = true -> wf_bytes data -> parse E data = Ok e -> mime_mail_value E e.
Proof.
  intros E data e HE HM HW H. assert (R : parse (release E) data = Ok e). { destruct (parse_un E data) as [U|[k U]]; [exact (eq_trans (eq_sym U) H)|]. rewrite H in U. discriminate U. }
  destruct (release_range (release E) data e (release_ok E HE) HM eq_refl HW R) as [V1 V2 V3 V4 V5 V6 V7 V8 V9 V10 V11 V12 V13 V14 V15 V16 V17].
  constructor; assumption.
Qed.

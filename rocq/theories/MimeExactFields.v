(* C53: one header. *)
From Coq Require Import Lia ZifyBool ZifyNat ZifyN Permutation.
From Verif Require Import SafetyProofs Base Utf8 CharSets Combinators Whitespace QuotedString EncodedWord Common Time Address Percent MimeFields Fields Message Entity Email Envs
  Rfc5322 Rfc2047 Post CodecSpec RfcFields SoundBase SoundTime SoundAddr TagNoCase ParamProofs SoundFields EmailSpec SoundMessage EmailProofs MessageFacts Steps Complete CompleteFields Forward ForwardText ForwardAddr
  ForwardList ForwardTime ForwardMime ForwardParams ForwardParts ForwardMimeFields ForwardFields ForwardMessage HeaderFacts LocalSpec Local LocalFacts KeptFacts Writers WriteFacts WriteAddr RegularSpec RegularFacts NeatFacts TidyFacts
  TraceFacts RangeFacts LinedFacts LessFacts LineSpec LineFacts LessExact KeenFacts PercentProofs ExactSpec RangeWrite ExactFacts MimeExactSpec MimeExactParts MimeExactBack MimeExactHeads PhraseSpec PhraseFacts PhraseBox PhraseHeads.
Local Open Scope N_scope.

(* ---- how a header parser stops ---- *)
(* Keywords may stop in front of a fold *)
Definition structured_halts (p : parser field) : Prop := forall j r f, p j = Ok (r, f) -> structured_kind f -> (forall l, f <> FKeywords l) -> exists c, j = c ++ CRLF ++ r /\ (fold_start (CRLF ++ r) -> blank_end c).
Lemma structured_halts_from : forall A (F : A -> field) (p : parser A), stops p -> structured_halts (pmap F p).
Proof. intros A F p H j r f X _ _. unfold pmap in X. destruct (p j) as [[r' a]|e|k] eqn:Y; cbn [bind] in X; try discriminate. injection X as -> _. destruct (H _ _ _ Y) as (c & H1 & _ & H2). exists c. auto. Qed.
Lemma structured_halts_keywords : forall E, structured_halts (pmap FKeywords (field_keywords E)).
Proof. intros E j r f X _ N. unfold pmap in X. destruct (field_keywords E j) as [[r' a]|e|k] eqn:Y; cbn [bind] in X; try discriminate. injection X as -> <-. destruct (N a eq_refl). Qed.
Lemma structured_halts_other : forall A (F : A -> field) (p : parser A), (forall a, ~ structured_kind (F a)) -> structured_halts (pmap F p).
Proof. intros A F p HF j r f H Hs _. unfold pmap in H. destruct (p j) as [[r' v]|e|k]; cbn [bind] in H; try discriminate. injection H as _ <-. exfalso. exact (HF v Hs). Qed.
Lemma fields_halt : forall E, Forall structured_halts (field_parsers E).
Proof.
  intros E. unfold field_parsers.
  repeat (apply Forall_cfg; [intros F; try (apply structured_halts_other; intros x X; destruct x as [[? ?] ?]; exact X); try (apply structured_halts_other; intros x X; destruct x as [? ?]; exact X); try (apply structured_halts_other; intros x X; exact X)|]);
  [apply structured_halts_from; sh "Date"%string firm_date_time keen_date_time|apply structured_halts_from; sh "From"%string firm_mailbox_list keen_mailbox_list
    |apply structured_halts_from; sh "Sender"%string firm_mailbox keen_mailbox|apply structured_halts_from; sh "Reply-To"%string firm_address_list keen_address_list
    |apply structured_halts_from; sh "To"%string firm_address_list keen_address_list|apply structured_halts_from; sh "Cc"%string firm_address_list keen_address_list
    |apply structured_halts_from; apply stops_header with (name := "Bcc"%string); [reflexivity|reflexivity|apply neat_bcc_value|apply keen_bcc_value]
    |apply structured_halts_from; sh "Message-ID"%string firm_message_id keen_message_id
    |apply structured_halts_from; apply stops_header with (name := "In-Reply-To"%string); [reflexivity|reflexivity|apply neat_ids|apply keen_ids]
    |apply structured_halts_from; apply stops_header with (name := "References"%string); [reflexivity|reflexivity|apply neat_ids|apply keen_ids]
    |apply structured_halts_from; sh "Content-ID"%string firm_message_id keen_message_id
    |apply structured_halts_keywords|].
  constructor; [|constructor]. apply structured_halts_other. intros [n v] X. exact X.
Qed.

(* ---- which parser a field comes from ---- *)
Definition origin (E : env) (j r : bytes) (f : field) : Prop :=
  match f with
  | FContentType k s l => content_type E j = Ok (r, (k, s, l))
  | FContentDisposition d => content_disposition E j = Ok (r, d)
  | FContentTransferEncoding e => content_transfer_encoding E j = Ok (r, e)
  | FUnknown n v => unknown E j = Ok (r, (n, v))
  | _ => True
  end.
Definition has_origin (E : env) (p : parser field) : Prop := forall j r f, p j = Ok (r, f) -> origin E j r f.
Lemma has_origin_from : forall E A (F : A -> field) (p : parser A), (forall j r a, p j = Ok (r, a) -> origin E j r (F a)) -> has_origin E (pmap F p).
Proof. intros E A F p H j r f X. unfold pmap in X. destruct (p j) as [[r' a]|e|k] eqn:Y; cbn [bind] in X; try discriminate. injection X as -> <-. now apply H. Qed.
Lemma origins : forall E, Forall (has_origin E) (field_parsers E).
Proof.
  intros E. unfold field_parsers.
  repeat (apply Forall_cfg; [intros F; apply has_origin_from; intros j r a H; first [exact I|exact H|destruct a as [[? ?] ?]; exact H|destruct a as [? ?]; exact I]|]).
  constructor; [|constructor]. apply has_origin_from. intros j r [n v] H. exact H.
Qed.
Lemma any_field_origin : forall E j r f, any_field E j = Ok (r, f) -> origin E j r f.
Proof. intros E j r f H. unfold any_field in H. apply match_ok in H as (p & Hp & H). pose proof (origins E) as G. rewrite Forall_forall in G. exact (G p Hp _ _ _ H). Qed.
Lemma any_field_halts : forall E j r f, any_field E j = Ok (r, f) -> structured_kind f -> (forall l, f <> FKeywords l) -> exists c, j = c ++ CRLF ++ r /\ (fold_start (CRLF ++ r) -> blank_end c).
Proof. intros E j r f H. unfold any_field in H. apply match_ok in H as (p & Hp & H). pose proof (fields_halt E) as G. rewrite Forall_forall in G. exact (G p Hp _ _ _ H). Qed.

(* ---- the structured headers of RFC 5322 ---- *)
Lemma phrases_dec : forall f, with_phrases f \/ ~ with_phrases f.
Proof. destruct f; cbn; auto. Qed.
Lemma structured_read : forall E j r f, env_ok E -> f_mime E = true -> any_field E j = Ok (r, f) -> no_blank r -> structured_kind f -> exists c, j = c ++ r /\ mime_field E c f.
Proof.
  intros E j r f HE HM H Hr Hk. destruct (phrases_dec f) as [D|D].
  { destruct (phrase_field_back E HM j r f H D (no_blank_ends _ Hr)) as (c & -> & Hc). exists c. split; [reflexivity|now constructor]. }
  destruct (any_field_sound E j r f HE H) as (c & -> & Hc). exists c. split; [reflexivity|].
  destruct (recognised_tidy E _ _ _ H Hr Hk) as (c' & X & HT). apply app_inv_tail in X. subst c'. apply mime_clear; [|exact D].
  destruct Hc as [c v F Hc|c v F Hc|c v F Hc|c v F Hc|c v F Hc|c v F Hc|c v F Hc|c v F Hc|c v F Hc|c v F Hc|c v F Hc|c v F Hc|c v F Hc
     |c x y F Hc|c t s p F Hc|c v F Hc|c v F Hc|c v F Hc|c v F Hc|c1 p c2 rr c3 l F H1 H2 H3 H4|c n v Hc]; try (exfalso; exact Hk); try (exfalso; apply D; exact I).
  + apply clear_date; auto. now apply header_regular_same.
  + apply clear_message_id; auto. now apply header_regular_same.
  + apply clear_in_reply_to; auto. now apply header_regular_same.
  + apply clear_references; auto. now apply header_regular_same.
  + apply clear_content_id; auto. now apply header_regular_same.
Qed.

(* ---- forward: the headers of the grammar ---- *)
Section Fields.
Variable E : env.
Hypothesis HE : env_ok E.
Hypothesis HM : f_mime E = true.
Hypothesis HD : debug E = false.
Definition any_value (c : bytes) (u : unit) : Prop := True.
Lemma any_header : forall (name : string) n t, same_nocase n (bs name) -> rfc_header name any_value (n ++ [58] ++ t ++ CRLF) tt.
Proof. intros. now constructor. Qed.
Lemma any_field_type : forall n t i r k s l, same_nocase n (bs "Content-Type") -> content_type E ((n ++ [58] ++ t ++ CRLF) ++ i) = Ok (r, (k, s, l)) -> any_field E ((n ++ [58] ++ t ++ CRLF) ++ i) = Ok (r, FContentType k s l).
Proof.
  intros n t i r k s l Hn X. pose proof (any_header "Content-Type" n t Hn) as H. unfold any_field, field_parsers. skip_others H. apply cfg_hit; [assumption|]. apply (pmap_ok _ _ (fun '(t, s, p) => FContentType t s p) (content_type E) _ r (k, s, l)). exact X.
Qed.
Lemma any_field_disposition : forall n t i r d, same_nocase n (bs "Content-Disposition") -> content_disposition E ((n ++ [58] ++ t ++ CRLF) ++ i) = Ok (r, d) -> any_field E ((n ++ [58] ++ t ++ CRLF) ++ i) = Ok (r, FContentDisposition d).
Proof.
  intros n t i r d Hn X. pose proof (any_header "Content-Disposition" n t Hn) as H. unfold any_field, field_parsers. skip_others H. apply cfg_hit; [assumption|]. apply pmap_ok. exact X.
Qed.
Lemma mime_field_forward : forall c f i, mime_field E c f -> ends is_wsp i -> exists f', any_field E (c ++ i) = Ok (i, f') /\ same_field f f'.
Proof.
  intros c f i H Hi. pose proof (ok_hash E HE) as HH. destruct H as [c f H _|c f H|n q t x k s l Hn H|n q t x d Hn H].
  - now apply any_field_forward.
  - exists f. split; [now apply phrase_field_forward|constructor].
  - destruct (type_forward E n q t x k s l i HH HD Hi Hn H) as (l' & X & Y). exists (FContentType k s l'). split; [now apply any_field_type|now constructor].
  - destruct (disposition_forward' E n q t x d i HH HD Hi Hn H) as (d' & X & Y). exists (FContentDisposition d'). split; [now apply any_field_disposition|exact Y].
Qed.
Lemma cut_tail : forall r z, CRLF ++ r = z ++ CRLF -> r <> [] -> exists y, r = y ++ CRLF.
Proof. intros r z X Hr. destruct z as [|a [|b z]]; cbn in X; [injection X as X; congruence|injection X as _ X; discriminate X|]. injection X as _ _ X. eauto. Qed.
Lemma cut_forward : forall c r i, cut_field E c r -> ends_crlf_text r -> ends is_wsp i -> exists f, any_field E (c ++ r ++ i) = Ok (r ++ i, f).
Proof.
  intros c r i H Hr Hi. pose proof (ok_hash E HE) as HH. destruct H as [c [x y] r H|c e r H|n t x [[k s] l] r Hn H HN|n t x d r Hn H HN|n t l r F Hn H HN].
  - exists (FMimeVersion x y). unfold any_field, field_parsers. skip_others H. apply cfg_hit; [assumption|]. apply (pmap_ok _ _ (fun '(a, b) => FMimeVersion a b) (mime_version E) _ (r ++ i) (x, y)). now apply mime_version_forward.
  - exists (FContentTransferEncoding e). unfold any_field, field_parsers. skip_others H. apply cfg_hit; [assumption|]. apply pmap_ok. now apply encoding_forward.
  - destruct (type_cut E n t x k s l r i HH HD Hi Hn H Hr HN) as (l' & X & Y). exists (FContentType k s l'). now apply any_field_type.
  - destruct (disposition_cut E n t x d r i HH HD Hi Hn H Hr HN) as (d' & X & Y). exists (FContentDisposition d'). now apply any_field_disposition.
  - exists (FKeywords l). pose proof (keywords_cut_here E HM n t l r F Hn H HN) as K. assert (C : exists y, n ++ [58] ++ t ++ CRLF = y ++ CRLF) by (exists (n ++ [58] ++ t); now rewrite <- !app_assoc).
    destruct r as [|x r]; [apply local_there; auto; [apply hlocal_any_field; [exact I|exact Hi]|now rewrite app_nil_r in K]|].
    apply local_cut; auto; [apply hlocal_any_field; [exact I|exact Hi]|]. destruct Hr as [z Hz]. exact (cut_tail (x :: r) z Hz ltac:(discriminate)).
Qed.
Lemma cut_end : forall c r, cut_field E c r -> exists y, c = y ++ CRLF.
Proof.
  intros c r H. destruct H as [c v r [n t v' _ _]|c e r [n t e' _ _]|n t x v r _ _ _|n t x d r _ _ _|n t l r _ _ _ _]; exists (n ++ [58] ++ t); now rewrite <- !app_assoc.
Qed.
Lemma cut_rest : forall a c r, a ++ CRLF = c ++ r -> (exists y, c = y ++ CRLF) -> r <> [] -> exists z, r = z ++ CRLF.
Proof.
  intros a c r X Y Hr. apply app_eq_app in X as (u & [[_ X]|[X X']]); [eauto|]. destruct u as [|u0 [|u1 u]].
  - exists []. now symmetry.
  - exfalso. injection X' as <- _. destruct Y as [y Y]. rewrite X in Y. change CRLF with ([13] ++ [10]) in Y. rewrite app_assoc in Y. apply app_inj_tail in Y as [_ Y]. discriminate.
  - exfalso. injection X' as _ _ X'. destruct u; [|discriminate]. now apply Hr.
Qed.
Lemma crlf_text : forall z, ends_crlf_text (z ++ CRLF).
Proof. intros z. exists (CRLF ++ z). now rewrite app_assoc. Qed.

(* ---- back: what a header parser has read ---- *)
Lemma same_unknown : forall f n v, same_field f (FUnknown n v) -> f = FUnknown n v.
Proof. intros f n v H. now inversion H. Qed.
Lemma unknown_text : forall t v, rfc_text_value (f_unrecognized_headers E) (textcode E) t v -> exists v', clear_text_value (f_unrecognized_headers E) (textcode E) t v'.
Proof.
  intros t v H. unfold rfc_text_value, clear_text_value in *. destruct (f_unrecognized_headers E); [|eauto]. apply mime_text_shape in H as [x H]. eapply clear_text_exists; eauto.
Qed.
Lemma text_header_clear : forall name c v, rfc_header name (rfc_text_value true (textcode E)) c v -> exists v', rfc_header name (clear_text_value true (textcode E)) c v'.
Proof. intros name c v [n t v' Hn Ht]. apply mime_text_shape in Ht as [x Ht]. destruct (clear_text_exists E t x Ht) as [y Hy]. exists y. now constructor. Qed.
Lemma mime_read_inv : forall j r f, any_field E j = Ok (r, f) -> no_blank r -> exists c, j = c ++ r /\ mime_read E c f.
Proof.
  intros j r f H Hr. pose proof (no_blank_ends _ Hr) as Hi. assert (D : structured_kind f \/ ~ structured_kind f) by (destruct f; cbn; auto). pose proof (any_field_origin E _ _ _ H) as O. destruct (any_field_sound E j r f HE H) as (c & -> & Hc). exists c. split; [reflexivity|].
  assert (G : forall g, clear_field E c g -> same_field g f).
  { intros g Hg. destruct (any_field_forward E c g r (ok_hash E HE) Hg Hi) as (f' & X & Y). rewrite H in X. now injection X as <-. }
  destruct D as [D|D].
  { destruct (structured_read E _ r f HE HM H Hr D) as (c' & X & Hf). apply app_inv_tail in X. subst c'. now constructor. }
  destruct Hc as [| | | | | | | | | |c s F Hc|c s F Hc| |c x y F Hc|c t s p F _|c e F _|c i F _|c s F Hc|c d F _|c1 p c2 rr c3 l _ _ _ _ _|c n v Hc]; try (exfalso; now apply D); cbn [origin] in O.
  - rewrite HM in Hc. destruct (text_header_clear _ _ _ Hc) as [s' Hs]. assert (X : clear_field E c (FSubject s')) by (apply clear_subject; [exact F|now rewrite HM]). pose proof (G _ X) as Y. inversion Y; subst. constructor. apply mime_clear; [exact X|intros K; exact K].
  - rewrite HM in Hc. destruct (text_header_clear _ _ _ Hc) as [s' Hs]. assert (X : clear_field E c (FComments s')) by (apply clear_comments; [exact F|now rewrite HM]). pose proof (G _ X) as Y. inversion Y; subst. constructor. apply mime_clear; [exact X|intros K; exact K].
  - constructor. apply mime_clear; [now apply clear_mime_version|intros K; exact K].
  - destruct (type_back E _ r _ (ok_hash E HE) O) as (n & q & t' & x & X & Hn & Ht & _). replace c with (n ++ [58] ++ t' ++ CRLF) by (apply (app_inv_tail r); rewrite <- !app_assoc; now symmetry). constructor. apply (mime_type_field E n q t' x); [exact Hn|]. eapply type_shrink; eauto.
  - pose proof (encoding_back E never (c ++ r)) as S. rewrite O in S. destruct S as (c' & X & S). apply app_inv_tail in X. subst c'. constructor. apply mime_clear; [now apply clear_encoding_field|intros K; exact K].
  - destruct (text_header_clear _ _ _ Hc) as [s' Hs]. assert (X : clear_field E c (FContentDescription s')) by (now apply clear_content_description). pose proof (G _ X) as Y. inversion Y; subst. constructor. apply mime_clear; [exact X|intros K; exact K].
  - destruct (disposition_back E _ r _ (ok_hash E HE) O) as (n & q & t' & x & X & Hn & Ht & _). replace c with (n ++ [58] ++ t' ++ CRLF) by (apply (app_inv_tail r); rewrite <- !app_assoc; now symmetry). constructor. apply (mime_disposition_field E n q t' x); [exact Hn|]. eapply disposition_shrink; eauto.
  - exfalso. pose proof (any_field_not_trace E _ _ _ H). discriminate.
  - inversion Hc as [n' t v' Hn Ht]; subst n' v' c. destruct (unknown_text t v Ht) as [v' Hv]. pose proof (unknown_forward E n t v' r Hn Hv Hi) as X. change (bs ":") with [58] in *.
    rewrite <- !app_assoc in O. rewrite O in X. injection X as <-. destruct (known_dec n (known_names E)) as [K|(name & K1 & K2)].
    + constructor. apply mime_clear; [|intros X; exact X]. apply clear_unknown_field. now constructor.
    + apply (mime_read_unstructured E n t v Hn Hv); change (bs ":") with [58].
      * intros f' Hf. destruct (mime_field_forward _ _ r Hf Hi) as (f'' & X & Y). rewrite H in X. injection X as <-. apply same_unknown in Y. subst f'.
        inversion Hf as [c' f' Hf' _ EQ|c' f' Hf' EQ|n0 q0 t0 x0 k0 s0 l0 Hn0 Ht0 EQ|n0 q0 t0 x0 d0 Hn0 Ht0 EQ]; subst; [|inversion Hf']. inversion Hf' as [| | | | | | | | | | | | | | | | | | |c' n' v' Hu]; subst. inversion Hu as [n0 c0 v0 Hn0 HK0 Ht0 EQ]; subst. exact (HK0 name K1 K2).
      * intros c r0 X R Y. destruct (cut_rest (n ++ [58] ++ t) c r0) as [z ->]; [now rewrite <- !app_assoc|eapply cut_end; eauto|exact R|]. destruct (cut_forward c _ r Y (crlf_text z) Hi) as (g & Z). rewrite app_assoc, <- X, H in Z.
        assert (L : r = (z ++ CRLF) ++ r) by congruence. apply (f_equal (@length N)) in L. rewrite !app_length in L. cbn in L. lia.
Qed.

(* ---- forward: the headers that are taken as unknown ones ---- *)
Lemma value_shape : forall m t v, clear_text_value m (textcode E) t v -> exists x, rfc_unstructured t x.
Proof. intros [] t v H; [eapply clear_text_shape; eauto|now exists v]. Qed.
Lemma header_renamed : forall name (A : Type) (V : bytes -> A -> Prop) n t x r i v v', chars1 rfc_ftext n -> ~ In 58 (bs name) -> n ++ [58] ++ t ++ CRLF ++ i = x ++ r -> rfc_header name V x v ->
  clear_text_value true (textcode E) t v' -> rfc_header name (clear_text_value true (textcode E)) (n ++ [58] ++ t ++ CRLF) v'.
Proof.
  intros name A V n t x r i v v' Hn Hc X H Ht. constructor; [|exact Ht]. destruct H as [m u w Hm Hu]. rewrite <- !app_assoc in X. apply colon_unique in X as [-> _]; [exact Hm|now apply ftext_no_colon|eapply fold_nocolon; eauto].
Qed.
Lemma mime_read_forward : forall c f i, mime_read E c f -> ends is_wsp i -> exists f', any_field E (c ++ i) = Ok (i, f') /\ same_field f f'.
Proof.
  intros c f i H Hi. destruct H as [c f H|n t v Hn Ht HN HC]; [now apply mime_field_forward|]. exists (FUnknown n v). split; [|constructor].
  change (bs ":") with [58] in *. destruct (value_shape _ _ _ Ht) as [y Hy]. pose proof (lined_unstructured _ _ Hy) as HL. pose proof (text_unblank false (textcode E) t y Hy) as HU. rewrite <- !app_assoc in *.
  pose proof (any_field_split E (n ++ [58] ++ t ++ CRLF ++ i)) as S.
  destruct (match_parsers (structured_parsers E) (n ++ [58] ++ t ++ CRLF ++ i)) as [[r g]|e|k] eqn:M.
  2:{ rewrite S. cbn [match_parsers]. unfold pmap. rewrite (unknown_forward E n t v i Hn Ht Hi). reflexivity. }
  2:{ exfalso. exact (any_field_no_crash E _ k HE (or_introl HD) S). }
  exfalso. pose proof (structured_ok _ _ _ _ M) as Hg. pose proof (any_field_origin E _ _ _ S) as O. destruct (any_field_sound E _ r g HE S) as (x & X & Hx).
  assert (N : near i i (n ++ [58] ++ t ++ CRLF ++ i) (n ++ [58] ++ t ++ CRLF ++ i)) by (exists (n ++ [58] ++ t); now rewrite <- !app_assoc).
  pose proof (lrel_self _ _ _ _ _ (hlocal_any_field i i Hi Hi E _ _ N) S) as L.
  assert (D : structured_kind g \/ ~ structured_kind g) by (destruct g; cbn; auto). destruct D as [D|D].
  - assert (R : r = i).
    { assert (K : (exists l, g = FKeywords l) \/ forall l, g <> FKeywords l) by (destruct g; (left; eexists; reflexivity) || (right; discriminate)). destruct K as [[l ->]|K].
      - apply later_self in L as [[z ->]| ->]; [exfalso|reflexivity].
        destruct (keywords_at E HM _ _ _ S) as (n' & k & t' & Y & Hn' & Ht' & Hk & _).
        assert (Y' : (n ++ [58] ++ t) ++ CRLF = (n' ++ [58] ++ t') ++ CRLF ++ z ++ CRLF) by (apply (app_inv_tail i); rewrite <- !app_assoc; exact Y).
        destruct (lined_end (n ++ [58] ++ t) _ _ (line_lined _ _ Hn HL) Y') as [Z|(w & q' & Z & Hw)]; [destruct z; discriminate|].
        assert (FS : fold_start (CRLF ++ z ++ CRLF ++ i)). { exists w, (q' ++ i). split; [|exact Hw]. f_equal. rewrite app_assoc, Z. reflexivity. }
        destruct k.
        2:{ destruct (Hk eq_refl FS) as (a & u & -> & Hb). rewrite <- !app_assoc in Y'. pose proof (line_unblank n t Hn HU) as U. unfold unblank in U. rewrite <- !app_assoc in U. apply (U (n' ++ [58] ++ a) u (z ++ CRLF)); [rewrite <- !app_assoc; exact Y'|exact Hb]. }
        assert (S2 : any_field E ((n' ++ [58] ++ t' ++ CRLF) ++ z ++ CRLF) = Ok (z ++ CRLF, FKeywords l)).
        { apply (local_uncut _ _ _ _ i); [apply hlocal_any_field; [exact Hi|exact I]|exists (n' ++ [58] ++ t'); now rewrite <- !app_assoc|eauto|]. rewrite <- !app_assoc. rewrite Y in S. exact S. }
        destruct (keywords_at E HM _ _ _ S2) as (n2 & k2 & t2 & Y2 & Hn2 & Ht2 & Hk2 & HO2).
        assert (NC : ~ In 58 (bs "Keywords")) by no_colon. rewrite <- !app_assoc in Y2. cbn [app] in Y2. apply colon_unique in Y2 as [<- Y2]; [|eapply fold_nocolon; eauto|eapply fold_nocolon; eauto]. apply app_inv_tail in Y2. subst t2.
        destruct k2.
        2:{ assert (FS2 : fold_start (CRLF ++ z ++ CRLF)) by (exists w, q'; split; [now rewrite Z|exact Hw]).
            destruct (Hk2 eq_refl FS2) as (a & u & -> & Hb). rewrite <- !app_assoc in Y'. pose proof (line_unblank n t Hn HU) as U. unfold unblank in U. rewrite <- !app_assoc in U. apply (U (n' ++ [58] ++ a) u (z ++ CRLF)); [rewrite <- !app_assoc; exact Y'|exact Hb]. }
        destruct (any_field_source E _ _ _ S) as [F _].
        apply (HC (n' ++ [58] ++ t' ++ CRLF) (z ++ CRLF)); [rewrite <- !app_assoc in *; exact Y'|destruct z; discriminate|]. now apply (cut_keywords E n' t' l).
      - destruct (any_field_halts E _ _ _ S D K) as (c & Y & F). apply (line_taken (n ++ [58] ++ t) i c r); auto; [now apply line_lined|now apply line_unblank|now rewrite <- !app_assoc]. }
    subst r. destruct (structured_read E _ i g HE HM S (ends_no_blank _ Hi) D) as (c' & Z & Hc). assert (n ++ [58] ++ t ++ CRLF = c') as <- by (apply (app_inv_tail i); rewrite <- !app_assoc; exact Z).
    exact (HN g Hc).
  - destruct (clear_text_exists E t y Hy) as [v' Hv].
    destruct Hx as [| | | | | | | | | |c s F Hc|c s F Hc| |c x y0 F Hc|c t0 s p F _|c e F _|c i0 F _|c s F Hc|c d F _|c1 p c2 rr c3 l _ _ _ _ _|c n0 v0 Hc]; try (now apply D); cbn [origin] in O.
    + apply (HN (FSubject v')). apply mime_clear; [|intros K; exact K]. apply clear_subject; [exact F|]. rewrite HM. eapply header_renamed; [exact Hn| |exact X|exact Hc|exact Hv]. no_colon.
    + apply (HN (FComments v')). apply mime_clear; [|intros K; exact K]. apply clear_comments; [exact F|]. rewrite HM. eapply header_renamed; [exact Hn| |exact X|exact Hc|exact Hv]. no_colon.
    + apply later_self in L as [[z ->]| ->].
      * apply (HC c (z ++ CRLF)); [apply (app_inv_tail i); rewrite <- !app_assoc; exact X|destruct z; discriminate|]. eapply cut_version; eauto.
      * apply (HN (FMimeVersion x y0)). apply mime_clear; [|intros K; exact K]. apply clear_mime_version; [exact F|]. assert (n ++ [58] ++ t ++ CRLF = c) as -> by (apply (app_inv_tail i); rewrite <- !app_assoc; exact X). exact Hc.
    + destruct (type_back E _ r _ (ok_hash E HE) O) as (n' & q & t' & x & X' & Hn' & Ht' & Hq & e & He). apply later_self in L as [[z ->]| ->].
      * assert (Y : (n ++ [58] ++ t) ++ CRLF = (n' ++ [58] ++ t') ++ CRLF ++ z ++ CRLF) by (apply (app_inv_tail i); rewrite <- !app_assoc; exact X').
        destruct (lined_end (n ++ [58] ++ t) _ _ (line_lined _ _ Hn HL) Y) as [Z|(w & q' & Z & Hw)]; [destruct z; discriminate|].
        assert (FS : fold_start (CRLF ++ z ++ CRLF ++ i)). { exists w, (q' ++ i). split; [|exact Hw]. f_equal. rewrite app_assoc, Z. reflexivity. }
        destruct q. { destruct (Hq FS eq_refl) as (a & u & -> & Hb). rewrite <- !app_assoc in Y. pose proof (line_unblank n t Hn HU) as U. unfold unblank in U. rewrite <- !app_assoc in U. apply (U (n' ++ [58] ++ a) u (z ++ CRLF)); [rewrite <- !app_assoc; exact Y|exact Hb]. }
        apply (HC (n' ++ [58] ++ t' ++ CRLF) (z ++ CRLF)); [rewrite <- !app_assoc in *; exact Y|destruct z; discriminate|].
        apply (cut_type E n' t' x (t0, s, p)); [exact Hn'|apply (type_shrink E _ i); rewrite <- !app_assoc; exact Ht'|]. intros q c0 a z0 Q. apply (param_stopped _ e He q c0 a (z0 ++ i)). apply (f_equal (fun l => l ++ i)) in Q. rewrite <- !app_assoc in Q. exact Q.
      * apply (HN (FContentType t0 s p)). assert (n ++ [58] ++ t ++ CRLF = n' ++ [58] ++ t' ++ CRLF) as -> by (apply (app_inv_tail i); rewrite <- !app_assoc; exact X'). apply (mime_type_field E n' q t' x); [exact Hn'|]. eapply type_shrink; eauto.
    + pose proof (encoding_back E never (n ++ [58] ++ t ++ CRLF ++ i)) as B. rewrite O in B. destruct B as (c' & X' & B). apply later_self in L as [[z ->]| ->].
      * apply (HC c' (z ++ CRLF)); [apply (app_inv_tail i); rewrite <- !app_assoc; exact X'|destruct z; discriminate|]. eapply cut_encoding; eauto.
      * apply (HN (FContentTransferEncoding e)). apply mime_clear; [|intros K; exact K]. apply clear_encoding_field; [exact F|]. assert (n ++ [58] ++ t ++ CRLF = c') as -> by (apply (app_inv_tail i); rewrite <- !app_assoc; exact X'). exact B.
    + apply (HN (FContentDescription v')). apply mime_clear; [|intros K; exact K]. apply clear_content_description; [exact F|]. apply (header_renamed "Content-Description" _ (mime_unstructured_text (textcode E)) n t c r i s v'); [exact Hn|no_colon|exact X|exact Hc|exact Hv].
    + destruct (disposition_back E _ r _ (ok_hash E HE) O) as (n' & q & t' & x & X' & Hn' & Ht' & Hq & e & He). apply later_self in L as [[z ->]| ->].
      * assert (Y : (n ++ [58] ++ t) ++ CRLF = (n' ++ [58] ++ t') ++ CRLF ++ z ++ CRLF) by (apply (app_inv_tail i); rewrite <- !app_assoc; exact X').
        destruct (lined_end (n ++ [58] ++ t) _ _ (line_lined _ _ Hn HL) Y) as [Z|(w & q' & Z & Hw)]; [destruct z; discriminate|].
        assert (FS : fold_start (CRLF ++ z ++ CRLF ++ i)). { exists w, (q' ++ i). split; [|exact Hw]. f_equal. rewrite app_assoc, Z. reflexivity. }
        destruct q. { destruct (Hq FS eq_refl) as (a & u & -> & Hb). rewrite <- !app_assoc in Y. pose proof (line_unblank n t Hn HU) as U. unfold unblank in U. rewrite <- !app_assoc in U. apply (U (n' ++ [58] ++ a) u (z ++ CRLF)); [rewrite <- !app_assoc; exact Y|exact Hb]. }
        apply (HC (n' ++ [58] ++ t' ++ CRLF) (z ++ CRLF)); [rewrite <- !app_assoc in *; exact Y|destruct z; discriminate|].
        apply (cut_disposition E n' t' x d); [exact Hn'|apply (disposition_shrink E _ i); rewrite <- !app_assoc; exact Ht'|]. intros q c0 a z0 Q. apply (item_stopped E _ e He q c0 a (z0 ++ i)). apply (f_equal (fun l => l ++ i)) in Q. rewrite <- !app_assoc in Q. exact Q.
      * apply (HN (FContentDisposition d)). assert (n ++ [58] ++ t ++ CRLF = n' ++ [58] ++ t' ++ CRLF) as -> by (apply (app_inv_tail i); rewrite <- !app_assoc; exact X'). apply (mime_disposition_field E n' q t' x); [exact Hn'|]. eapply disposition_shrink; eauto.
    + pose proof (any_field_not_trace E _ _ _ S). discriminate.
Qed.

(* ---- their shape ---- *)
Lemma mime_read_line : forall c f, mime_read E c f -> hline c.
Proof.
  intros c f [c' f' H|n t v Hn Ht _ _].
  - destruct (mime_field_forward c' f' [] H I) as (g & X & _). rewrite app_nil_r in X. destruct (any_field_sound E c' [] g HE X) as (x & -> & Hx). rewrite app_nil_r. apply (field_hline E x g Hx). eapply any_field_not_trace; eauto.
  - destruct (value_shape _ _ _ Ht) as [y Hy]. constructor; [exact Hn|]. eapply lined_unstructured; eauto.
Qed.
End Fields.

(* The headers made of phrases, with encoded words: the parser against PhraseSpec.v. *)
From Coq Require Import Lia ZifyBool ZifyNat ZifyN.
From Verif Require Import Base Utf8 Combinators CharSets Whitespace QuotedString Common EncodedWord Address Time MimeFields Fields Message Rfc5322 Rfc2047 CodecSpec RfcFields Post SoundBase SoundTime SoundAddr TagNoCase SoundFields SoundMessage MessageFacts Steps Complete CompleteFields
  Forward ForwardText ForwardAddr ForwardList ForwardTime ForwardMimeFields ForwardTrace ForwardFields ForwardMessage HeaderFacts LocalSpec Local LocalFacts KeptFacts Writers WriteFacts RegularSpec RegularFacts NeatFacts TidyFacts KeenFacts RangeWrite ExactFacts PhraseSpec PhraseFacts PhraseBox.
Local Open Scope N_scope.

Lemma steps_end : forall A (p : parser A) i l r, steps p i l r -> exists e, p r = Err e.
Proof. intros A p i l r H. induction H; eauto. Qed.
Lemma blank_after : forall a b, blank_end b -> blank_end (a ++ b).
Proof. intros. now apply blank_app. Qed.

(* ---- a header and the text after it ---- *)
Lemma local_there : forall A (p : parser A) c i f, hlocal [] i p -> (exists y, c = y ++ CRLF) -> p c = Ok ([], f) -> p (c ++ i) = Ok (i, f).
Proof.
  intros A p c i f HL [y ->] H. specialize (HL (y ++ CRLF) ((y ++ CRLF) ++ i)). rewrite H in HL. destruct (p ((y ++ CRLF) ++ i)) as [[r g]|e|k]; try (exfalso; apply HL; exists y; now rewrite <- ?app_assoc).
  destruct HL as [<- [(z & X & _)|[_ ->]]]; [exists y; now rewrite <- ?app_assoc| |reflexivity]. destruct z; discriminate X.
Qed.
Lemma local_here : forall A (p : parser A) c i f, hlocal i [] p -> (exists y, c = y ++ CRLF) -> p (c ++ i) = Ok (i, f) -> p c = Ok ([], f).
Proof.
  intros A p c i f HL [y ->] H. specialize (HL ((y ++ CRLF) ++ i) (y ++ CRLF)). rewrite H in HL. destruct (p (y ++ CRLF)) as [[r g]|e|k]; try (exfalso; apply HL; exists y; now rewrite <- ?app_assoc).
  destruct HL as [<- [(z & X & _)|[_ ->]]]; [exists y; now rewrite <- ?app_assoc| |reflexivity]. exfalso. apply (f_equal (@length N)) in X. rewrite !app_length in X. cbn in X. lia.
Qed.
(* the text after a cut *)
Lemma local_cut : forall A (p : parser A) c r i f, hlocal [] i p -> (exists y, c = y ++ CRLF) -> (exists z, r = z ++ CRLF) -> p (c ++ r) = Ok (r, f) -> p (c ++ r ++ i) = Ok (r ++ i, f).
Proof.
  intros A p c r i f HL [y ->] [z ->] H. specialize (HL ((y ++ CRLF) ++ z ++ CRLF) ((y ++ CRLF) ++ (z ++ CRLF) ++ i)). rewrite H in HL.
  assert (NR : near [] i ((y ++ CRLF) ++ z ++ CRLF) ((y ++ CRLF) ++ (z ++ CRLF) ++ i)) by (exists ((y ++ CRLF) ++ z); now rewrite <- ?app_assoc).
  destruct (p ((y ++ CRLF) ++ (z ++ CRLF) ++ i)) as [[r g]|e|k]; try (destruct (HL NR)).
  destruct H1 as [(z' & X & ->)|[X _]]; [|destruct z; discriminate X]. subst g. apply (app_inv_tail CRLF) in X. subst z'. now rewrite <- app_assoc.
Qed.
Lemma local_uncut : forall A (p : parser A) c r i f, hlocal i [] p -> (exists y, c = y ++ CRLF) -> (exists z, r = z ++ CRLF) -> p (c ++ r ++ i) = Ok (r ++ i, f) -> p (c ++ r) = Ok (r, f).
Proof.
  intros A p c r i f HL [y ->] [z ->] H. specialize (HL ((y ++ CRLF) ++ (z ++ CRLF) ++ i) ((y ++ CRLF) ++ z ++ CRLF)). rewrite H in HL.
  assert (NR : near i [] ((y ++ CRLF) ++ (z ++ CRLF) ++ i) ((y ++ CRLF) ++ z ++ CRLF)) by (exists ((y ++ CRLF) ++ z); now rewrite <- ?app_assoc).
  destruct (p ((y ++ CRLF) ++ z ++ CRLF)) as [[r g]|e|k]; try (destruct (HL NR)).
  destruct H1 as [(z' & X & ->)|[X _]]; subst g.
  - rewrite <- app_assoc in X. apply app_inv_tail in X. subst z'. reflexivity.
  - exfalso. apply (f_equal (@length N)) in X. rewrite !app_length in X. cbn in X. lia.
Qed.

(* ---- the parser of a header ---- *)
Lemma header_at : forall A E e1 e2 m (p : parser A) m2 (name : string) j r v, header E e1 e2 m p m2 j = Ok (r, v) -> nocase_pair (bs e1) (bs e2) = true -> bs e1 = bs name ++ [58] ->
  exists n t, j = n ++ [58] ++ t /\ same_nocase n (bs name) /\ p t = Ok (CRLF ++ r, v).
Proof.
  intros A E e1 e2 m p m2 name j r v H H1 H2. unfold header in H. pose proof (post_tag_no_case E never (bs e1) (bs e2) m j H1) as T.
  destruct (tag_no_case E (bs e1) (bs e2) m j) as [[j1 u]|e|k]; cbn [bind] in H; try discriminate. destruct T as (k & -> & Hk). destruct (p j1) as [[j2 v']|e|k'] eqn:P; cbn [bind] in H; try discriminate.
  destruct (tag_inv CRLF m2 j2) as [(t & -> & X)|[_ X]]; rewrite X in H; cbn [bind] in H; [|discriminate]. injection H as -> ->. rewrite H2 in Hk. apply name_colon in Hk as (n & -> & Hn).
  exists n, j1. split; [now rewrite <- app_assoc|]. auto.
Qed.
Lemma header_reads : forall A E e1 e2 m (p : parser A) m2 (name : string) (P : bytes -> bytes -> A -> Prop) j v, header E e1 e2 m p m2 j = Ok ([], v) -> nocase_pair (bs e1) (bs e2) = true -> bs e1 = bs name ++ [58] ->
  (forall i r v, p i = Ok (r, v) -> exists c, i = c ++ r /\ P r c v) -> rfc_header name (P CRLF) j v.
Proof.
  intros A E e1 e2 m p m2 name P j v H H1 H2 HP. destruct (header_at _ _ _ _ _ _ _ name _ _ _ H H1 H2) as (n & t & -> & Hn & Ht). destruct (HP _ _ _ Ht) as (c & -> & Hc). now constructor.
Qed.
Lemma resent_reads : forall A E m' e1 e2 m (p : parser A) m2 (name : string) (P : bytes -> bytes -> A -> Prop) j v, resent E m' (header E e1 e2 m p m2) j = Ok ([], v) -> nocase_pair (bs e1) (bs e2) = true -> bs e1 = bs name ++ [58] ->
  (forall i r v, p i = Ok (r, v) -> exists c, i = c ++ r /\ P r c v) -> rfc_header ("Resent-" ++ name) (P CRLF) j v.
Proof.
  intros A E m' e1 e2 m p m2 name P j v H H1 H2 HP. unfold resent in H. pose proof (post_tag_no_case E never (bs "Resent-") (bs "rESENT-") m' j eq_refl) as T.
  destruct (tag_no_case E (bs "Resent-") (bs "rESENT-") m' j) as [[j1 u]|e|k]; cbn [bind] in H; try discriminate. destruct T as (k & -> & Hk). pose proof (header_reads _ _ _ _ _ _ _ name P _ _ H H1 H2 HP) as X. clear H. destruct X as [n t v Hn Ht].
  rewrite (app_assoc k n). constructor; [|exact Ht]. unfold same_nocase in *. rewrite map_app. change (bs ("Resent-" ++ name)) with (bs "Resent-" ++ bs name). rewrite map_app. apply f_equal2; assumption.
Qed.

(* ---- which parser a field comes from ---- *)
Definition comes (E : env) (j r : bytes) (f : field) : Prop :=
  match f with
  | FFrom l => f_from E = true /\ field_from E j = Ok (r, l)
  | FSender m => f_sender E = true /\ field_sender E j = Ok (r, m)
  | FReplyTo l => f_reply_to E = true /\ field_reply_to E j = Ok (r, l)
  | FTo l => f_to E = true /\ field_to E j = Ok (r, l)
  | FCc l => f_cc E = true /\ field_cc E j = Ok (r, l)
  | FBcc l => f_bcc E = true /\ field_bcc E j = Ok (r, l)
  | FKeywords l => f_keywords E = true /\ field_keywords E j = Ok (r, l)
  | _ => True
  end.
Definition has_source (E : env) (p : parser field) : Prop := forall j r f, p j = Ok (r, f) -> comes E j r f.
Lemma has_source_from : forall E A (F : A -> field) (p : parser A), (forall j r a, p j = Ok (r, a) -> comes E j r (F a)) -> has_source E (pmap F p).
Proof. intros E A F p H j r f X. unfold pmap in X. destruct (p j) as [[r' a]|e|k] eqn:Y; cbn [bind] in X; try discriminate. injection X as -> <-. now apply H. Qed.
Lemma sources : forall E, Forall (has_source E) (field_parsers E).
Proof.
  intros E. unfold field_parsers.
  repeat (apply Forall_cfg; [intros F; apply has_source_from; intros j r a H; first [exact I|exact (conj F H)|destruct a as [[? ?] ?]; exact I|destruct a as [? ?]; exact I]|]).
  constructor; [|constructor]. apply has_source_from. intros j r [n v] H. exact I.
Qed.
Lemma any_field_source : forall E j r f, any_field E j = Ok (r, f) -> comes E j r f.
Proof. intros E j r f H. unfold any_field in H. apply match_ok in H as (p & Hp & H). pose proof (sources E) as G. rewrite Forall_forall in G. exact (G p Hp _ _ _ H). Qed.

Section Heads.
Variable E : env.
Hypothesis HM : f_mime E = true.
Notation tc := (textcode E).
Notation compat := (f_compatibility_fixes E).

(* ---- Keywords ---- *)
Lemma keywords_run : forall rest k (Q : bytes -> Prop), (forall a d b, visible d -> Q (a ++ [d] ++ b) -> Q b) -> (forall c n, Q c -> read_phrase tc rest k c n -> phrase E (c ++ rest) = Ok (rest, n)) -> ends (fun c => 44 =? c) rest ->
  forall c l, read_keywords tc rest k c l -> Q c -> exists a l' j, l = a :: l' /\ phrase E (c ++ rest) = Ok (j, a) /\ steps (prefixed (phrase E) (bs ",")) j l' rest /\ (length j <= length (c ++ rest))%nat.
Proof.
  intros rest k Q HQ HP He c l H. induction H as [k c n Hc|k k' c n cs l Hc Hcs IH]; intros Hq.
  - exists n, [], rest. split; [reflexivity|]. split; [now apply HP|]. split; [|rewrite app_length; lia]. destruct (prefixed_none _ (phrase E) 44 rest He) as [e X]. eapply steps_stop; exact X.
  - change (bs ",") with [44] in *. apply HQ in Hq; [|vis]. destruct (IH HP Hq) as (a2 & l2 & j & -> & Hj & Hs & Hl). rewrite <- !app_assoc.
    exists n, (a2 :: l2), ([44] ++ cs ++ rest). split; [reflexivity|]. split.
    { destruct (read_forward E HM k' c n [] ([44] ++ cs ++ rest) Hc) as (l' & _ & _ & Hl' & X); [constructor|right; apply starts_visible_cons; vis|reflexivity|reflexivity|]. rewrite (Hl' eq_refl) in X. exact X. }
    split; [|rewrite !app_length in *; cbn [length]; lia]. eapply steps_more; [| |exact Hs].
    + cbn [app]. rewrite prefixed_ok. exact Hj.
    + rewrite (app_length [44]). cbn [length]. lia.
Qed.
Lemma keywords_read_forward : forall k c l i, read_keywords tc (CRLF ++ i) k c l -> follows c (CRLF ++ i) -> keywords_value E (c ++ CRLF ++ i) = Ok (CRLF ++ i, l).
Proof.
  intros k c l i H Hf. destruct (keywords_run (CRLF ++ i) k (fun c => follows c (CRLF ++ i))) with (c := c) (l := l) as (a & l' & j & -> & Hj & Hs & _); auto.
  - intros a d b Hd X. now apply follows_after1 in X.
  - intros c0 n F Hc. destruct (read_forward E HM k c0 n [] (CRLF ++ i) Hc) as (l' & _ & _ & Hl' & X); [constructor|left; auto|reflexivity|reflexivity|]. rewrite (Hl' eq_refl) in X. exact X.
  - reflexivity.
  - unfold keywords_value. use_phrase Hj. cbn [bind]. rewrite (many_steps _ _ _ _ _ Hs). reflexivity.
Qed.
(* the last word is an encoded one, and no further word follows *)
Lemma phrase_cut : forall rest c n, read_phrase tc rest true c n -> (exists e, phrase_word E rest = Err e) -> phrase E (c ++ rest) = Ok (rest, n).
Proof.
  intros rest c n [Hn H] He. destruct (words_steps E HM rest (fun f => f = rest) _ _ _ _ H) as (j & f & Hj & -> & S).
  - intros r _ ->. exists rest. split; [reflexivity|]. split; [reflexivity|exact He].
  - cbn [at_word] in Hj. subst j. unfold phrase. now apply many1_steps.
Qed.
Lemma phrase_no_crash : forall i k, phrase E i <> Crash k.
Proof. intros i k H. pose proof (sound_phrase E never i) as S. rewrite H in S. exact S. Qed.
Lemma word_no_phrase : forall rest, (forall k c vs z, rest = c ++ z -> ~ read_phrase tc z k c vs) -> exists e, phrase_word E rest = Err e.
Proof.
  intros rest H. destruct (phrase E rest) as [[r n]|e|k] eqn:P.
  - destruct (read_back E HM _ _ _ P) as (k & c & X & Hc & _). destruct (H k c n r X Hc).
  - unfold phrase, many1 in P. destruct (phrase_word E rest) as [[r v]|e'|k]; cbn [bind] in P; [|eauto|discriminate]. destruct (many (phrase_word E) r) as [[r' l]|e'|k] eqn:M; cbn [bind] in P; try discriminate. now apply many_not_err in M.
  - now apply phrase_no_crash in P.
Qed.
Lemma keywords_cut_forward : forall c l i, read_keywords tc (CRLF ++ i) true c l -> (forall k c vs z, CRLF ++ i = c ++ z -> ~ read_phrase tc z k c vs) -> keywords_value E (c ++ CRLF ++ i) = Ok (CRLF ++ i, l).
Proof.
  intros c l i H HN. destruct (keywords_run (CRLF ++ i) true (fun _ => True)) with (c := c) (l := l) as (a & l' & j & -> & Hj & Hs & _); auto.
  - intros c0 n _ Hc. apply phrase_cut; [exact Hc|]. now apply word_no_phrase.
  - reflexivity.
  - unfold keywords_value. use_phrase Hj. cbn [bind]. rewrite (many_steps _ _ _ _ _ Hs). reflexivity.
Qed.
Lemma first_word : forall rest k c vs, read_phrase tc rest k c vs -> exists x, phrase_word E (c ++ rest) = Ok x.
Proof.
  intros rest k c vs [Hn H]. inversion H as [|s Hs|k0 k' s x v c' vs' Hs Hx Hc|k0 k' s a c' vs' Hs Ha Hd HN Hc|k0 k' s b v c' vs' Hs Hb Hc]; subst; try congruence; rewrite <- !app_assoc.
  - destruct Hs as [w Hs]. rewrite (word_encoded E HM s w x v (c' ++ rest) Hs Hx). eauto.
  - assert (P : is_plain a (c' ++ rest) a).
    { left. split; [exact Ha|]. split; [reflexivity|]. destruct (c' ++ rest) as [|x t]; [exact I|]. cbn. destruct (is_atext x) eqn:X; [|reflexivity]. apply atext_spec in X. destruct (Hd x t eq_refl X). }
    destruct (skip_total (c' ++ rest)) as [j J]. rewrite (word_plain E HM s a (c' ++ rest) a j Hs P J HN). eauto.
  - assert (P : is_plain ([34] ++ b ++ [34]) (c' ++ rest) v) by (right; eauto). destruct (skip_total (c' ++ rest)) as [j J].
    assert (W : phrase_word E (s ++ ([34] ++ b ++ [34]) ++ c' ++ rest) = Ok (j, v)).
    { apply (word_plain E HM s _ (c' ++ rest) v j Hs P J). intros _ (e & w & t & He & X). destruct He. discriminate X. }
    rewrite <- !app_assoc in W. rewrite W. eauto.
Qed.
Lemma phrase_over : forall i r n, phrase E i = Ok (r, n) -> forall k c vs z, r = c ++ z -> ~ read_phrase tc z k c vs.
Proof.
  intros i r n H k c vs z -> Hc. apply phrase_steps in H as [_ H]. apply steps_end in H as [e H]. destruct (first_word _ _ _ _ Hc) as [x X]. congruence.
Qed.
Lemma phrase_shorter : forall i r n, phrase E i = Ok (r, n) -> (length r < length i)%nat.
Proof.
  intros i r n H. apply phrase_steps in H as [Hn H]. destruct H as [i e H|i r a l r' H L Hs]; [congruence|]. clear Hn H. revert L. generalize i. clear i. induction Hs as [j e H|j r a' l r' H L' Hs IH]; intros i L; [exact L|]. specialize (IH j L'). lia.
Qed.
Lemma keywords_steps_back : forall j l r, steps (prefixed (phrase E) (bs ",")) j l r -> forall i a, phrase E i = Ok (j, a) ->
  exists k c, i = c ++ r /\ read_keywords tc r k c (a :: l) /\ (k = false -> fold_start r -> blank_end c) /\ (forall k c vs z, r = c ++ z -> ~ read_phrase tc z k c vs).
Proof.
  intros j l r H. change (bs ",") with [44] in H. induction H as [j e H|j r b l rest H _ Hs IH]; intros i a Ha.
  - pose proof (phrase_over _ _ _ Ha) as O. destruct (read_back E HM _ _ _ Ha) as (k & c & -> & Hc & Hb). exists k, c. split; [reflexivity|]. split; [now constructor|auto].
  - destruct (prefixed_back _ _ _ _ _ H) as (j' & -> & Hj). destruct (IH _ _ Hj) as (k & cs & -> & Hcs & Hb & HO). destruct (read_back E HM _ _ _ Ha) as (k' & c & -> & Hc & _). exists k, (c ++ bs "," ++ cs). change (bs ",") with [44]. split; [now rewrite <- !app_assoc|].
    split; [eapply read_keywords_more; [exact Hc|exact Hcs]|]. split; [|exact HO]. intros K F. rewrite app_assoc. apply blank_app. auto.
Qed.
Lemma keywords_back : forall i r l, keywords_value E i = Ok (r, l) ->
  exists k c, i = c ++ r /\ read_keywords tc r k c l /\ (k = false -> fold_start r -> blank_end c) /\ (forall k c vs z, r = c ++ z -> ~ read_phrase tc z k c vs).
Proof.
  intros i r l H. unfold keywords_value in H. destruct (phrase E i) as [[j n]|e|k] eqn:P; cbn [bind] in H; try discriminate. destruct (many (prefixed (phrase E) (bs ",")) j) as [[j2 l2]|e|k] eqn:S; cbn [bind] in H; try discriminate. injection H as -> <-.
  apply many_inv in S; [|exact (prefixed_shorter _ _ 44 phrase_shorter)]. exact (keywords_steps_back _ _ _ S _ _ P).
Qed.

(* ---- headers ---- *)
Lemma bcc_read_forward : forall c l i, read_bcc tc compat (CRLF ++ i) c l -> follows c (CRLF ++ i) -> bcc_value E (c ++ CRLF ++ i) = Ok (CRLF ++ i, l).
Proof.
  intros c l i [c' l' H|c' H] Hf; unfold bcc_value.
  - rewrite (addresses_forward E HM (CRLF ++ i) c' l') by (auto; try reflexivity; split; reflexivity). reflexivity.
  - destruct (address_stop E c' (CRLF ++ i)) as [e He]; try reflexivity; auto; [now constructor|].
    unfold address_list. use_at address He. cbn [bind attempt]. destruct (cfws_forward c' _ H Hf) as [v ->]. reflexivity.
Qed.
Lemma header_crlf : forall name A (V : bytes -> A -> Prop) c v, rfc_header name V c v -> exists y, c = y ++ CRLF.
Proof. intros name A V c v [n t v' _ _]. exists (n ++ [58] ++ t). now rewrite <- !app_assoc. Qed.
Ltac phit H nm := unfold any_field, field_parsers; skip_others H; apply cfg_hit; [assumption|]; apply pmap_ok; eapply header_forward with (name := nm); [reflexivity|reflexivity|exact H|]; intros c' v' [Hv Ht].
Lemma phrase_field_here : forall c f, phrase_field E c f -> any_field E c = Ok ([], f).
Proof.
  intros c f H. rewrite <- (app_nil_r c). destruct H as [c v Hf H|c v Hf H|c v Hf H|c v Hf H|c v Hf H|c v Hf H|c k v Hf H].
  - phit H "From"%string. apply (mailboxes_forward E HM CRLF); auto; [now apply (tidy_follows _ [])|split; reflexivity|reflexivity].
  - phit H "Sender"%string. apply (mailbox_read_forward E HM CRLF); auto; [now apply (tidy_follows _ [])|split; reflexivity].
  - phit H "Reply-To"%string. apply (addresses_forward E HM CRLF); auto; [now apply (tidy_follows _ [])|split; reflexivity|reflexivity].
  - phit H "To"%string. apply (addresses_forward E HM CRLF); auto; [now apply (tidy_follows _ [])|split; reflexivity|reflexivity].
  - phit H "Cc"%string. apply (addresses_forward E HM CRLF); auto; [now apply (tidy_follows _ [])|split; reflexivity|reflexivity].
  - phit H "Bcc"%string. apply (bcc_read_forward _ _ []); [exact Hv|now apply tidy_follows].
  - phit H "Keywords"%string. apply (keywords_read_forward k _ _ []); [exact Hv|now apply tidy_follows].
Qed.
Lemma phrase_field_end : forall c f, phrase_field E c f -> exists y, c = y ++ CRLF.
Proof. intros c f H. destruct H as [c v Hf H|c v Hf H|c v Hf H|c v Hf H|c v Hf H|c v Hf H|c k v Hf H]; eapply header_crlf; exact H. Qed.
Theorem phrase_field_forward : forall c f i, phrase_field E c f -> ends is_wsp i -> any_field E (c ++ i) = Ok (i, f).
Proof. intros c f i H Hi. apply local_there; [apply hlocal_any_field; [exact I|exact Hi]|eapply phrase_field_end; eauto|now apply phrase_field_here]. Qed.
Lemma with_structured : forall f, with_phrases f -> structured_kind f.
Proof. intros f H. destruct f; try destruct H; exact I. Qed.
Lemma comes_end : forall j r f, comes E j r f -> with_phrases f -> exists y, j = (y ++ CRLF) ++ r.
Proof.
  assert (K : forall A e1 e2 m (p : parser A) m2 (name : string) j r v, header E e1 e2 m p m2 j = Ok (r, v) -> nocase_pair (bs e1) (bs e2) = true -> bs e1 = bs name ++ [58] -> (forall i r v, p i = Ok (r, v) -> exists c, i = c ++ r) -> exists y, j = (y ++ CRLF) ++ r).
  { intros A e1 e2 m p m2 name j r v H H1 H2 HP. destruct (header_at _ _ _ _ _ _ _ name _ _ _ H H1 H2) as (n & t & -> & _ & Ht). destruct (HP _ _ _ Ht) as (c & ->). exists (n ++ [58] ++ c). now rewrite <- !app_assoc. }
  assert (M : forall i r v, mailbox_list E i = Ok (r, v) -> exists c, i = c ++ r) by (intros i r v X; destruct (mailboxes_back E HM _ _ _ X) as (c & Y & _); eauto).
  assert (B : forall i r v, mailbox E i = Ok (r, v) -> exists c, i = c ++ r) by (intros i r v X; destruct (mailbox_back E HM _ _ _ X) as (c & Y & _); eauto).
  assert (L : forall i r v, address_list E i = Ok (r, v) -> exists c, i = c ++ r) by (intros i r v X; destruct (addresses_back E HM _ _ _ X) as (c & Y & _); eauto).
  assert (C : forall i r v, bcc_value E i = Ok (r, v) -> exists c, i = c ++ r) by (intros i r v X; destruct (bcc_back E HM _ _ _ X) as (c & Y & _); eauto).
  assert (W : forall i r v, keywords_value E i = Ok (r, v) -> exists c, i = c ++ r) by (intros i r v X; destruct (keywords_back _ _ _ X) as (k & c & Y & _); eauto).
  intros j r f H Hf. destruct f; try (destruct Hf; fail); destruct H as [_ H];
    [apply (K _ _ _ _ _ _ "From"%string _ _ _ H eq_refl eq_refl M)|apply (K _ _ _ _ _ _ "Sender"%string _ _ _ H eq_refl eq_refl B)
    |apply (K _ _ _ _ _ _ "Reply-To"%string _ _ _ H eq_refl eq_refl L)|apply (K _ _ _ _ _ _ "To"%string _ _ _ H eq_refl eq_refl L)
    |apply (K _ _ _ _ _ _ "Cc"%string _ _ _ H eq_refl eq_refl L)|apply (K _ _ _ _ _ _ "Bcc"%string _ _ _ H eq_refl eq_refl C)
    |apply (K _ _ _ _ _ _ "Keywords"%string _ _ _ H eq_refl eq_refl W)].
Qed.
Ltac preads nm L := apply header_regular_same; [|assumption]; match goal with C : _ _ = Ok ([], _) |- _ => eapply (header_reads _ E _ _ _ _ _ nm _ _ _ C eq_refl eq_refl L) end.
Lemma phrase_field_whole : forall c f, any_field E c = Ok ([], f) -> with_phrases f -> phrase_field E c f.
Proof.
  intros c f H Hf. pose proof (any_field_source E _ _ _ H) as C. destruct (recognised_tidy E _ _ _ H (ends_no_blank [] I) (with_structured f Hf)) as (c' & X & T). rewrite app_nil_r in X. subst c'.
  destruct f; try (destruct Hf; fail); destruct C as [F C].
  - apply phrase_from; [exact F|]. preads "From"%string (mailboxes_back E HM).
  - apply phrase_sender; [exact F|]. preads "Sender"%string (mailbox_back E HM).
  - apply phrase_reply_to; [exact F|]. preads "Reply-To"%string (addresses_back E HM).
  - apply phrase_to; [exact F|]. preads "To"%string (addresses_back E HM).
  - apply phrase_cc; [exact F|]. preads "Cc"%string (addresses_back E HM).
  - apply phrase_bcc; [exact F|]. preads "Bcc"%string (bcc_back E HM).
  - destruct (header_at _ _ _ _ _ _ _ "Keywords"%string _ _ _ C eq_refl eq_refl) as (n & t & -> & Hn & Ht). destruct (keywords_back _ _ _ Ht) as (k & y & -> & Hy & _). apply (phrase_keywords E _ k); [exact F|]. apply header_regular_same; [now constructor|exact T].
Qed.
Theorem phrase_field_back : forall j r f, any_field E j = Ok (r, f) -> with_phrases f -> ends is_wsp r -> exists c, j = c ++ r /\ phrase_field E c f.
Proof.
  intros j r f H Hf Hr. destruct (comes_end _ _ _ (any_field_source E _ _ _ H) Hf) as (y & ->). exists (y ++ CRLF). split; [reflexivity|]. apply phrase_field_whole; [|exact Hf].
  apply (local_here _ _ _ r); [apply hlocal_any_field; [exact Hr|exact I]|eauto|exact H].
Qed.
(* Keywords cut at a line end, or not *)
Lemma keywords_at : forall j r l, any_field E j = Ok (r, FKeywords l) ->
  exists n k t, j = n ++ [58] ++ t ++ CRLF ++ r /\ same_nocase n (bs "Keywords") /\ read_keywords tc (CRLF ++ r) k t l /\ (k = false -> fold_start (CRLF ++ r) -> blank_end t) /\ (forall k c vs z, CRLF ++ r = c ++ z -> ~ read_phrase tc z k c vs).
Proof.
  intros j r l H. destruct (any_field_source E _ _ _ H) as [F C]. destruct (header_at _ _ _ _ _ _ _ "Keywords"%string _ _ _ C eq_refl eq_refl) as (n & t & -> & Hn & Ht). destruct (keywords_back _ _ _ Ht) as (k & y & -> & Hy & H1 & H2). exists n, k, y. auto.
Qed.
Lemma keywords_cut_here : forall n t l r, f_keywords E = true -> same_nocase n (bs "Keywords") -> read_keywords tc (CRLF ++ r) true t l -> (forall k c vs z, CRLF ++ r = c ++ z -> ~ read_phrase tc z k c vs) ->
  any_field E ((n ++ [58] ++ t ++ CRLF) ++ r) = Ok (r, FKeywords l).
Proof.
  intros n t l r F Hn Ht HN. assert (H : rfc_header "Keywords" (fun c v => c = t /\ v = l) (n ++ [58] ++ t ++ CRLF) l) by (now constructor).
  unfold any_field, field_parsers. skip_others H. apply cfg_hit; [assumption|]. apply pmap_ok. eapply header_forward with (name := "Keywords"%string); [reflexivity|reflexivity|exact H|]. intros c' v' [-> ->]. now apply keywords_cut_forward.
Qed.

(* ---- the headers of trace blocks ---- *)
Ltac pres nm H := apply parsers_hit; apply pmap_ok; eapply resent_forward with (name := nm); [reflexivity|reflexivity|exact H|]; intros c' v' [Hv Ht].
Ltac pskip nm H := resent_skip nm ltac:(other H).
Lemma phrase_resent_here : forall c f, phrase_resent E c f -> resent_field E c = Ok ([], f).
Proof.
  intros c f H. rewrite <- (app_nil_r c). unfold resent_field. destruct H as [c v H|c v H|c v H|c v H|c v H|c v H|c v H].
  - pres "Date"%string H. apply date_time_forward; auto. now apply (tidy_follows _ []).
  - pskip "Date"%string H. pres "From"%string H. apply (mailboxes_forward E HM CRLF); auto; [now apply (tidy_follows _ [])|split; reflexivity|reflexivity].
  - pskip "Date"%string H. pskip "From"%string H. pres "Sender"%string H. apply (mailbox_read_forward E HM CRLF); auto; [now apply (tidy_follows _ [])|split; reflexivity].
  - pskip "Date"%string H. pskip "From"%string H. pskip "Sender"%string H. pres "To"%string H. apply (addresses_forward E HM CRLF); auto; [now apply (tidy_follows _ [])|split; reflexivity|reflexivity].
  - pskip "Date"%string H. pskip "From"%string H. pskip "Sender"%string H. pskip "To"%string H. pres "Cc"%string H. apply (addresses_forward E HM CRLF); auto; [now apply (tidy_follows _ [])|split; reflexivity|reflexivity].
  - pskip "Date"%string H. pskip "From"%string H. pskip "Sender"%string H. pskip "To"%string H. pskip "Cc"%string H. pres "Bcc"%string H. apply (bcc_read_forward _ _ []); [exact Hv|now apply tidy_follows].
  - pskip "Date"%string H. pskip "From"%string H. pskip "Sender"%string H. pskip "To"%string H. pskip "Cc"%string H. pskip "Bcc"%string H. pres "Message-ID"%string H. apply message_id_forward; auto. now apply (tidy_follows _ []).
Qed.
Lemma phrase_resent_end : forall c f, phrase_resent E c f -> exists y, c = y ++ CRLF.
Proof. intros c f H. destruct H as [c v H|c v H|c v H|c v H|c v H|c v H|c v H]; eapply header_crlf; exact H. Qed.
Theorem phrase_resent_forward : forall c f i, phrase_resent E c f -> ends is_wsp i -> resent_field E (c ++ i) = Ok (i, f).
Proof. intros c f i H Hi. apply local_there; [apply hlocal_resent_field; [exact I|exact Hi]|eapply phrase_resent_end; eauto|now apply phrase_resent_here]. Qed.
Ltac rreads nm L := apply header_regular_same; [|assumption]; match goal with C : _ _ = Ok ([], _) |- _ => eapply (resent_reads _ E _ _ _ _ _ _ nm _ _ _ C eq_refl eq_refl L) end.
Lemma date_back : forall i r v, date_time E i = Ok (r, v) -> exists c, i = c ++ r /\ (fun _ : bytes => rfc_date_value) r c v.
Proof. intros i r v H. pose proof (sound_date_value E never i) as S. unfold date_value in S || idtac. rewrite H in S. exact S. Qed.
Lemma id_back : forall i r v, message_id E i = Ok (r, v) -> exists c, i = c ++ r /\ (fun _ : bytes => rfc_msg_id compat) r c v.
Proof. intros i r v H. pose proof (sound_message_id E never i) as S. rewrite H in S. exact S. Qed.
Lemma phrase_resent_whole : forall c f, resent_field E c = Ok ([], f) -> tidy_line c -> phrase_resent E c f.
Proof.
  intros c f H T. unfold resent_field in H. apply match_ok in H as (p & Hp & H). cbn [In] in Hp.
  repeat (destruct Hp as [<-|Hp]; [unfold pmap in H; match type of H with bind ?x _ = _ => destruct x as [[r v]|e|k] eqn:R; cbn [bind] in H; try discriminate; injection H as -> <- end|]); [..|destruct Hp].
  - apply phrase_resent_date. rreads "Date"%string date_back.
  - apply phrase_resent_from. rreads "From"%string (mailboxes_back E HM).
  - apply phrase_resent_sender. rreads "Sender"%string (mailbox_back E HM).
  - apply phrase_resent_to. rreads "To"%string (addresses_back E HM).
  - apply phrase_resent_cc. rreads "Cc"%string (addresses_back E HM).
  - apply phrase_resent_bcc. rreads "Bcc"%string (bcc_back E HM).
  - apply phrase_resent_id. rreads "Message-ID"%string id_back.
Qed.
Theorem phrase_resent_back : forall j r f, resent_field E j = Ok (r, f) -> no_blank r -> exists c, j = c ++ r /\ phrase_resent E c f.
Proof.
  intros j r f H Hr. destruct (stops_resent_field E _ _ _ H) as (y & -> & T & _). exists (y ++ CRLF). split; [now rewrite <- app_assoc|]. rewrite app_assoc in H. apply phrase_resent_whole; [|now apply T].
  apply (local_here _ _ _ r); [apply hlocal_resent_field; [now apply no_blank_ends|exact I]|eauto|exact H].
Qed.
End Heads.

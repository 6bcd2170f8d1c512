(* C21: the capitalisation of header names has no influence, but on the names of the unknown
   headers themselves. *)
From Coq Require Import Lia ZifyBool ZifyNat ZifyN Permutation.
From Verif Require Import Base Utf8 CharSets Combinators Whitespace QuotedString Common Time Address Percent MimeFields Fields Message Entity Email Envs
  Rfc5322 Rfc2047 Post CodecSpec RfcFields SoundBase SoundTime SoundAddr TagNoCase ParamProofs SoundFields EmailSpec SoundMessage EmailProofs MessageFacts Steps Complete CompleteFields Forward ForwardText
  ForwardFields ForwardMessage HeaderFacts LocalSpec Local LocalFacts.
Local Open Scope N_scope.

Lemma nocase_sym : forall a b, same_nocase a b -> same_nocase b a.
Proof. unfold same_nocase. congruence. Qed.
Lemma nocase_ftext_eq : forall n n', same_nocase n n' -> chars1 rfc_ftext n -> chars1 rfc_ftext n'.
Proof.
  intros n n' H [H1 H2]. split; [intros ->; apply nocase_length in H; destruct n; [easy|discriminate]|]. unfold same_nocase in H. unfold chars in *. clear H1. revert n' H. induction H2 as [|c n Hc _ IH]; intros [|c' n'] H; try discriminate; constructor.
  - injection H as H _. unfold rfc_ftext in *. unfold fold_case in H. destruct ((65 <=? c) && (c <=? 90)) eqn:?, ((65 <=? c') && (c' <=? 90)) eqn:?; lia.
  - injection H as _ H. auto.
Qed.
Lemma lrel_refl : forall A (R : bytes -> bytes -> Prop) (x : res (bytes * A)), (forall r, R r r) -> lrel R x x.
Proof. intros A R [[r a]|e|k] H; cbn; auto. Qed.
Lemma starts_nocase_fold : forall e i i', map fold_case i = map fold_case i' -> starts_nocase i e = starts_nocase i' e.
Proof. induction e as [|a e IH]; intros [|c i] [|c' i'] H; try discriminate; auto. cbn [starts_nocase]. injection H as H1 H2. rewrite H1. f_equal. now apply IH. Qed.
Lemma nocase_app : forall a b x, same_nocase a b -> map fold_case (a ++ x) = map fold_case (b ++ x).
Proof. unfold same_nocase. intros a b x H. rewrite !map_app. now f_equal. Qed.
(* after a name and its colon, the rest is the same *)
Lemma tag_colon : forall E (name : string) e1 e2 m n n' r, nocase_pair e1 e2 = true -> e1 = bs name ++ [58] -> ~ In 58 (bs name) -> same_nocase n n' -> ~ In 58 n ->
  lrel eq (tag_no_case E e1 e2 m (n ++ [58] ++ r)) (tag_no_case E e1 e2 m (n' ++ [58] ++ r)).
Proof.
  intros E name e1 e2 m n n' r Hp -> Hname Hn Hc. assert (Hc' : ~ In 58 n') by (apply (fold_nocolon n' n); auto using nocase_sym).
  assert (F : starts_nocase (n ++ [58] ++ r) (bs name ++ [58]) = starts_nocase (n' ++ [58] ++ r) (bs name ++ [58])).
  { apply starts_nocase_fold. now apply nocase_app. }
  destruct (starts_nocase (n ++ [58] ++ r) (bs name ++ [58])) eqn:S.
  - assert (G : forall n, ~ In 58 n -> starts_nocase (n ++ [58] ++ r) (bs name ++ [58]) = true -> tag_no_case E (bs name ++ [58]) e2 m (n ++ [58] ++ r) = Ok (r, tt)).
    { clear - Hp Hname. intros n Hc S. apply starts_nocase_spec in S as (k & t & S & H). pose proof H as H'. apply name_colon in H as (k' & -> & Hk).
      rewrite <- app_assoc in S. cbn [app] in S. apply colon_unique in S as [<- <-]; auto; [|eapply fold_nocolon; eauto]. rewrite app_assoc. apply tag_no_case_ok; auto. }
    rewrite (G n), (G n'); auto. cbn. auto.
  - destruct (tag_no_case_err E (bs name ++ [58]) e2 m (n ++ [58] ++ r)) as [x ->]; auto. destruct (tag_no_case_err E (bs name ++ [58]) e2 m (n' ++ [58] ++ r)) as [x' ->]; auto. exact I.
Qed.

(* the rests are the same, or one is a recased version of the other *)
Section Recase.
Variables (n n' r0 : bytes).
Hypothesis Hn : same_nocase n n'.
Hypothesis Ht : chars1 rfc_ftext n.
Local Notation t := (n ++ [58] ++ r0).
Local Notation t' := (n' ++ [58] ++ r0).
Definition after (i i' : bytes) : Prop := later t t' i i' \/ i = i'.
Lemma after_refl : forall i, after i i.
Proof. now right. Qed.
Lemma ftext_nocolon : forall m, chars1 rfc_ftext m -> ~ In 58 m.
Proof. intros m [_ H] Hi. unfold chars in H. rewrite Forall_forall in H. apply H in Hi. unfold rfc_ftext in Hi. lia. Qed.
Lemma ftext_ends : forall m x, chars1 rfc_ftext m -> ends is_wsp (m ++ x).
Proof. intros [|c m] x [H1 H2]; [easy|]. inversion H2; subst. cbn. unfold is_wsp, rfc_ftext in *. lia. Qed.
Definition tlocal {A} (p : parser A) : Prop := lrel after (p t) (p t').
Lemma rlocal_after : forall A (p : parser A), hlocal t t' p -> tlocal p -> rlocal after p.
Proof. intros A p H1 H2 i i' [[N|[-> ->]]| ->]; [|exact H2|apply lrel_refl; exact after_refl]. eapply lrel_weaken; [|apply H1; exact N]. now left. Qed.
Lemma tlocal_tag : forall A E (name : string) e1 e2 m (k : bytes * unit -> res (bytes * A)), nocase_pair e1 e2 = true -> e1 = bs name ++ [58] -> ~ In 58 (bs name) ->
  lrel after (bind (tag_no_case E e1 e2 m t) k) (bind (tag_no_case E e1 e2 m t') k).
Proof. intros. eapply lrel_bind; [eapply tag_colon; eauto using ftext_nocolon|]. intros r r' a ->. apply lrel_refl. exact after_refl. Qed.
Lemma tlocal_header : forall A E (name : string) e1 e2 m (p : parser A) m', nocase_pair (bs e1) (bs e2) = true -> bs e1 = bs name ++ [58] -> ~ In 58 (bs name) -> tlocal (header E e1 e2 m p m').
Proof. intros. unfold tlocal, header. now apply (tlocal_tag _ E name). Qed.
Lemma tlocal_pmap : forall A B (f : A -> B) (p : parser A), tlocal p -> tlocal (pmap f p).
Proof. intros A B f p H. unfold tlocal, pmap. apply lrel_bind with (Q := after); [exact H|]. intros. now apply lrel_ok. Qed.
Lemma tlocal_match : forall A (ps : list (parser A)), Forall tlocal ps -> tlocal (match_parsers ps).
Proof. intros A ps H. apply lrel_match. exact H. Qed.
End Recase.
Ltac tl nm := lazymatch goal with |- tlocal _ _ _ (?f ?E) => unfold f end; eapply tlocal_header with (name := nm); [assumption|assumption|vm_compute; reflexivity|reflexivity|no_colon].
Lemma tlocal_resent : forall A E n n' r0 m (name : string) e1 e2 m1 (p : parser A) m2, same_nocase n n' -> chars1 rfc_ftext n ->
  nocase_pair (bs e1) (bs e2) = true -> bs e1 = bs name ++ [58] -> ~ In 58 (bs name) -> tlocal n n' r0 (resent E m (header E e1 e2 m1 p m2)).
Proof.
  intros A E n n' r0 m name e1 e2 m1 p m2 Hn Ht H1 H2 H3. unfold tlocal, resent.
  assert (F : starts_nocase (n ++ [58] ++ r0) (bs "Resent-") = starts_nocase (n' ++ [58] ++ r0) (bs "Resent-")). { apply starts_nocase_fold. now apply nocase_app. }
  destruct (starts_nocase (n ++ [58] ++ r0) (bs "Resent-")) eqn:S.
  - apply starts_nocase_spec in S as (k & t & S & Hk).
    assert (Q : exists b, n = k ++ b /\ t = b ++ [58] ++ r0).
    { assert (Kc : ~ In 58 k) by (eapply fold_nocolon; [exact Hk|no_colon]). clear - S Kc. revert n S. induction k as [|x k IH]; intros n S; [exists n; split; auto|].
      destruct n as [|y n]; cbn in S; inversion S; subst; [exfalso; apply Kc; now left|]. destruct (IH ltac:(cbn in Kc; tauto) n H1) as (b & -> & ->). now exists b. }
    destruct Q as (b & -> & ->). pose proof Hn as Hn'. unfold same_nocase in Hn'. rewrite map_app in Hn'. symmetry in Hn'. apply map_eq_app in Hn' as (k' & b' & -> & Hk' & Hb').
    rewrite <- !app_assoc. rewrite (tag_no_case_ok E (bs "Resent-") (bs "rESENT-") m k) by (auto; reflexivity).
    rewrite (tag_no_case_ok E (bs "Resent-") (bs "rESENT-") m k') by (try reflexivity; unfold same_nocase; exact (eq_trans Hk' Hk)). cbn [bind].
    assert (Hb : same_nocase b b') by (unfold same_nocase; symmetry; exact Hb'). assert (Cb : ~ In 58 b). { intros X. apply (ftext_nocolon (k ++ b) Ht). apply in_or_app. now right. }
    unfold header. eapply lrel_bind; [eapply (tag_colon E name); eauto|]. intros r r' a ->. apply lrel_refl. apply after_refl.
  - destruct (tag_no_case_err E (bs "Resent-") (bs "rESENT-") m (n ++ [58] ++ r0)) as [x ->]; auto.
    destruct (tag_no_case_err E (bs "Resent-") (bs "rESENT-") m (n' ++ [58] ++ r0)) as [x' ->]; auto. exact I.
Qed.

Lemma Forall_cfg2 : forall A (P : parser A -> Prop) b p l, P p -> Forall P l -> Forall P (cfg b p ++ l).
Proof. intros A P [] p l H Hl; cbn; auto. Qed.
Ltac tl_mime nm := lazymatch goal with |- tlocal _ _ _ (?f ?E) => unfold f, tlocal end; eapply tlocal_tag with (name := nm); [assumption|assumption|vm_compute; reflexivity|reflexivity|no_colon].
Section Recase2.
Variables (n n' r0 : bytes).
Hypothesis Hn : same_nocase n n'.
Hypothesis Ht : chars1 rfc_ftext n.
Lemma tlocal_return_path : forall E, tlocal n n' r0 (return_path E).
Proof. intros E. tl "Return-Path"%string. Qed.
Lemma tlocal_received : forall E, tlocal n n' r0 (received E).
Proof. intros E. tl "Received"%string. Qed.
Ltac tr nm := lazymatch goal with |- tlocal _ _ _ (resent _ _ (?f ?E)) => unfold f end; eapply tlocal_resent with (name := nm); [assumption|assumption|vm_compute; reflexivity|reflexivity|no_colon].
Lemma tlocal_resent_field : forall E, tlocal n n' r0 (resent_field E).
Proof.
  intros E. unfold resent_field. apply tlocal_match.
  repeat lazymatch goal with |- Forall _ (_ :: _) => apply Forall_cons; [apply tlocal_pmap; lazymatch goal with
    | |- tlocal _ _ _ (resent _ _ (field_date _)) => tr "Date"%string
    | |- tlocal _ _ _ (resent _ _ (field_from _)) => tr "From"%string
    | |- tlocal _ _ _ (resent _ _ (field_sender _)) => tr "Sender"%string
    | |- tlocal _ _ _ (resent _ _ (field_to _)) => tr "To"%string
    | |- tlocal _ _ _ (resent _ _ (field_cc _)) => tr "Cc"%string
    | |- tlocal _ _ _ (resent _ _ (field_bcc _)) => tr "Bcc"%string
    | |- tlocal _ _ _ (resent _ _ (field_message_id _)) => tr "Message-ID"%string end|] end. apply Forall_nil.
Qed.
Definition fold_name (f : field) : field := match f with FUnknown m v => FUnknown (map fold_case m) v | _ => f end.
Lemma take_ftext : forall m x, chars1 rfc_ftext m -> take_while1 is_ftext (m ++ [58] ++ x) = Ok ([58] ++ x, m).
Proof. intros m x H. apply (take_while1_app is_ftext rfc_ftext); auto; [exact ftext_spec|exact ftext_ascii|reflexivity]. Qed.
Lemma tlocal_unknown : forall E, tlocal n n' r0 (pmap fold_name (pmap (fun '(m, v) => FUnknown m v) (unknown E))).
Proof.
  intros E. unfold tlocal, pmap, unknown. rewrite (take_ftext n r0 Ht), (take_ftext n' r0 (nocase_ftext_eq _ _ Hn Ht)). cbn [bind].
  change (bs ":") with [58]. rewrite !tag_app. cbn [bind].
  destruct ((if f_unrecognized_headers E then mime_unstructured E else unstructured) r0) as [[i v]|e|k]; cbn [bind lrel]; auto.
  destruct (tag CRLF _ i) as [[i2 u]|e|k]; cbn [bind lrel]; auto. split; [|apply after_refl]. cbn [fold_name]. f_equal. exact Hn.
Qed.
Lemma pmap_match : forall A B (g : A -> B) (ps : list (parser A)) i, pmap g (match_parsers ps) i = match_parsers (map (pmap g) ps) i.
Proof.
  intros A B g ps i. unfold pmap. induction ps as [|p ps IH]; cbn [map match_parsers]; [reflexivity|]. rewrite <- IH. now destruct (p i) as [[r a]|e|k].
Qed.
Lemma tlocal_any_field : forall E, tlocal n n' r0 (pmap fold_name (any_field E)).
Proof.
  intros E. unfold tlocal, any_field. rewrite !pmap_match. apply tlocal_match. apply Forall_map. unfold field_parsers.
  repeat lazymatch goal with |- Forall _ (cfg _ _ ++ _) => apply Forall_cfg2; [do 2 apply tlocal_pmap; lazymatch goal with
    | |- tlocal _ _ _ (field_date _) => tl "Date"%string
    | |- tlocal _ _ _ (field_from _) => tl "From"%string
    | |- tlocal _ _ _ (field_sender _) => tl "Sender"%string
    | |- tlocal _ _ _ (field_reply_to _) => tl "Reply-To"%string
    | |- tlocal _ _ _ (field_to _) => tl "To"%string
    | |- tlocal _ _ _ (field_cc _) => tl "Cc"%string
    | |- tlocal _ _ _ (field_bcc _) => tl "Bcc"%string
    | |- tlocal _ _ _ (field_message_id _) => tl "Message-ID"%string
    | |- tlocal _ _ _ (field_in_reply_to _) => tl "In-Reply-To"%string
    | |- tlocal _ _ _ (field_references _) => tl "References"%string
    | |- tlocal _ _ _ (field_subject _) => tl "Subject"%string
    | |- tlocal _ _ _ (field_comments _) => tl "Comments"%string
    | |- tlocal _ _ _ (field_keywords _) => tl "Keywords"%string
    | |- tlocal _ _ _ (mime_version _) => tl_mime "MIME-Version"%string
    | |- tlocal _ _ _ (content_type _) => tl_mime "Content-Type"%string
    | |- tlocal _ _ _ (content_transfer_encoding _) => tl_mime "Content-Transfer-Encoding"%string
    | |- tlocal _ _ _ (content_id _) => tl_mime "Content-ID"%string
    | |- tlocal _ _ _ (content_description _) => tl_mime "Content-Description"%string
    | |- tlocal _ _ _ (content_disposition _) => tl_mime "Content-Disposition"%string end|] end.
  apply Forall_cons; [apply tlocal_unknown|apply Forall_nil].
Qed.
Local Notation t := (n ++ [58] ++ r0).
Local Notation t' := (n' ++ [58] ++ r0).
Lemma recase_fields : forall E, env_ok E -> rlocal (after n n' r0) (pmap (map fold_name) (fields E)).
Proof.
  intros E HE. pose proof (ftext_ends n ([58] ++ r0) Ht) as W. pose proof (ftext_ends n' ([58] ++ r0) (nocase_ftext_eq _ _ Hn Ht)) as W'.
  apply rlocal_fields; auto.
  - apply rlocal_after; [now apply hlocal_return_path|apply tlocal_return_path].
  - apply rlocal_after; [now apply hlocal_received|apply tlocal_received].
  - apply rlocal_after; [now apply hlocal_resent_field|apply tlocal_resent_field].
  - apply rlocal_after; [apply hlocal_pmap; now apply hlocal_any_field|apply tlocal_any_field].
Qed.
End Recase2.
(* ---- messages ---- *)
Lemma fold_recased : forall fs fs', map fold_name fs = map fold_name fs' -> Forall2 recased_field fs fs'.
Proof.
  induction fs as [|f fs IH]; intros [|f' fs'] H; try discriminate; constructor.
  - injection H as H _. destruct f, f'; cbn in H; try discriminate; try (rewrite H; constructor). injection H as H ->. now constructor.
  - injection H as _ H. auto.
Qed.
Lemma ftext_nostart : forall m x, chars1 rfc_ftext m -> starts_with (m ++ x) CRLF = false.
Proof. intros [|c m] x [H1 H2]; [easy|]. inversion H2; subst. cbn [app starts_with CRLF]. destruct (13 =? c) eqn:K; [|reflexivity]. apply N.eqb_eq in K. subst. unfold rfc_ftext in *. lia. Qed.
Lemma app_not_nil : forall (m x : bytes), chars1 rfc_ftext m -> m ++ x <> [].
Proof. intros [|c m] x [H1 H2]; easy. Qed.
Lemma recase_message : forall E pre n n' r0, env_ok E -> header_start pre -> same_nocase n n' -> chars1 rfc_ftext n ->
  same_outcome (fun x y => Forall2 recased_field (fst x) (fst y) /\ snd x = snd y) (parse_message E (pre ++ n ++ [58] ++ r0)) (parse_message E (pre ++ n' ++ [58] ++ r0)).
Proof.
  intros E pre n n' r0 HE Hpre Hn Ht. pose proof (nocase_ftext_eq _ _ Hn Ht) as Ht'.
  assert (A : after n n' r0 (pre ++ n ++ [58] ++ r0) (pre ++ n' ++ [58] ++ r0)).
  { left. destruct Hpre as [->|(h & Hh & ->)]; [right; auto|left]. exists h. now rewrite <- !app_assoc. }
  pose proof (recase_fields n n' r0 Hn Ht E HE _ _ A) as G. unfold pmap in G. unfold parse_message.
  destruct (fields E (pre ++ n ++ [58] ++ r0)) as [[r l]|e|k] eqn:X, (fields E (pre ++ n' ++ [58] ++ r0)) as [[r' l']|e'|k']; cbn in G; try contradiction; cbn [bind same_outcome]; auto.
  destruct G as [G S]. apply fold_recased in G. destruct S as [[(z & -> & ->)|[-> ->]]| ->].
  - apply fields_stop in X as (c & X & Hc); auto. destruct Hpre as [->|(h & Hh & ->)].
    + exfalso. apply (f_equal (@length _)) in X. rewrite !app_length in X. cbn in X. lia.
    + assert (X' : h ++ CRLF ++ (n ++ [58] ++ r0) = c ++ z ++ CRLF ++ (n ++ [58] ++ r0)) by (rewrite <- X; now rewrite <- !app_assoc).
      pose proof (header_block_stop h c z _ (n ++ [58] ++ r0) Hh X' Hc) as S. pose proof (header_block_stop h c z _ (n' ++ [58] ++ r0) Hh X' Hc) as S'.
      assert (N : forall x, z ++ CRLF ++ x <> []) by (intros; destruct z; discriminate).
      assert (Y := body_stop (f_mime E) _ (N _) S). assert (Y' := body_stop (f_mime E) _ (N _) S'). rew_bind Y. cbn [bind same_outcome]. rew_bind Y'. exact I.
  - assert (Y := body_stop (f_mime E) _ (app_not_nil n ([58] ++ r0) Ht) (ftext_nostart n _ Ht)). assert (Y' := body_stop (f_mime E) _ (app_not_nil n' ([58] ++ r0) Ht') (ftext_nostart n' _ Ht')).
    rew_bind Y. cbn [bind same_outcome]. rew_bind Y'. exact I.
  - lazymatch goal with |- context [@bind (option bytes) _ ?x _] => destruct x as [b|e|k] end; cbn [bind same_outcome fst snd]; auto.
Qed.

(* ---- emails ---- *)
Lemma recased_pick : forall A (sel : field -> option A) fs fs', (forall f g, recased_field f g -> sel f = sel g) -> Forall2 recased_field fs fs' -> pick sel fs = pick sel fs'.
Proof. intros A sel fs fs' H F. unfold pick. induction F; cbn; auto. rewrite (H _ _ H0). now f_equal. Qed.
Lemma recased_only : forall A (sel : field -> option A) fs fs', (forall f g, recased_field f g -> sel f = sel g) -> Forall2 recased_field fs fs' -> only sel fs = only sel fs'.
Proof. intros. unfold only. f_equal. now apply recased_pick. Qed.
Ltac rec_sel := let H := fresh in intros ? ? H; destruct H; reflexivity.
Definition with_unknown (e : email) (u : list (bytes * bytes)) : email :=
  {| body_of := body_of e; from := from e; sender := sender e; subject := subject e; date_of := date_of e; to := to e; cc := cc e; bcc := bcc e;
    message_id_of := message_id_of e; in_reply_to := in_reply_to e; references := references e; reply_to := reply_to e; comments := comments e; keywords := keywords e;
    trace_of := trace_of e; mime_entity := mime_entity e; unknown_fields := u |}.
Lemma recased_email_of : forall E fs fs' b e, Forall2 recased_field fs fs' -> email_of E fs b e -> email_of E fs' b (with_unknown e (pick is_unknown fs')).
Proof.
  intros E fs fs' b e F H. destruct H.
  assert (P : forall A (sel : field -> option A), (forall f g, recased_field f g -> sel f = sel g) -> pick sel fs = pick sel fs') by (intros; now apply recased_pick).
  assert (O : forall A (sel : field -> option A), (forall f g, recased_field f g -> sel f = sel g) -> only sel fs = only sel fs') by (intros; now apply recased_only).
  rewrite (P _ singular) in of_unique by rec_sel. rewrite (O _ is_from) in of_from by rec_sel. rewrite (O _ is_date) in of_date by rec_sel. rewrite (O _ is_sender) in of_sender by rec_sel.
  rewrite (O _ is_subject) in of_subject by rec_sel. rewrite (O _ is_to) in of_to by rec_sel. rewrite (O _ is_cc) in of_cc by rec_sel. rewrite (O _ is_bcc) in of_bcc by rec_sel.
  rewrite (O _ is_message_id) in of_message_id by rec_sel. rewrite (O _ is_in_reply_to) in of_in_reply_to by rec_sel. rewrite (O _ is_references) in of_references by rec_sel.
  rewrite (O _ is_reply_to) in of_reply_to by rec_sel. rewrite (P _ is_comments) in of_comments by rec_sel. rewrite (P _ is_keywords) in of_keywords by rec_sel. rewrite (P _ is_trace) in of_trace by rec_sel.
  rewrite (O _ is_cte), (O _ is_content_type), (O _ is_content_description), (O _ is_content_id), (O _ is_content_disposition) in of_mime by rec_sel.
  constructor; first [assumption|reflexivity].
Qed.
Lemma recased_unknowns : forall fs fs', Forall2 recased_field fs fs' -> Forall2 (fun x y => same_nocase (fst x) (fst y) /\ snd x = snd y) (pick is_unknown fs) (pick is_unknown fs').
Proof.
  intros fs fs' F. induction F as [|f f' fs fs' H F IH]; [constructor|]. unfold pick in *. cbn [map concat]. apply Forall2_app; [|exact IH].
  destruct H as [f|m m' v H]; [|repeat constructor; auto]. destruct f; cbn; repeat constructor.
Qed.
Lemma recased_field_sym : forall f g, recased_field f g -> recased_field g f.
Proof. intros f g []; constructor. now apply nocase_sym. Qed.
Lemma Forall2_sym : forall A (R : A -> A -> Prop) l l', (forall a b, R a b -> R b a) -> Forall2 R l l' -> Forall2 R l' l.
Proof. intros A R l l' H F. induction F; constructor; auto. Qed.
Lemma recase_step : forall E pre n n' r0, env_ok E -> header_start pre -> same_nocase n n' -> chars1 rfc_ftext n ->
  same_outcome recased_email (parse E (pre ++ n ++ [58] ++ r0)) (parse E (pre ++ n' ++ [58] ++ r0)).
Proof.
  intros E pre n n' r0 HE Hpre Hn Ht. pose proof (recase_message E pre n n' r0 HE Hpre Hn Ht) as M.
  set (d := pre ++ n ++ [58] ++ r0) in *. set (d' := pre ++ n' ++ [58] ++ r0) in *. clearbody d d'.
  destruct (parse_message E d) as [[fs b]|e|k] eqn:X, (parse_message E d') as [[fs' b']|e'|k'] eqn:X'; cbn [same_outcome] in M; try contradiction.
  2: unfold parse; now rewrite X, X'. 2: unfold parse; rewrite X, X'; exact M.
  cbn [fst snd] in M. destruct M as [F ->]. pose proof (assemble_spec E fs b') as S. pose proof (assemble_spec E fs' b') as S'. rewrite <- (parse_assemble _ _ _ _ X) in S. rewrite <- (parse_assemble _ _ _ _ X') in S'.
  assert (I1 := fun e => parse_iff_email E d fs b' e HE X). assert (I2 := fun e => parse_iff_email E d' fs' b' e HE X').
  destruct (parse E d) as [e|e|k] eqn:P, (parse E d') as [e'|e'|k'] eqn:P'; try contradiction; cbn [same_outcome]; auto.
  - pose proof (recased_email_of E fs fs' b' e F S) as Q. pose proof (email_of_fun _ _ _ _ _ S' Q) as ->. split; [reflexivity|]. cbn [unknown_fields with_unknown]. destruct S. rewrite of_unknown. now apply recased_unknowns.
  - pose proof (recased_email_of E fs fs' b' e F S) as Q. apply I2 in Q. discriminate.
  - pose proof (recased_email_of E fs' fs b' e' (Forall2_sym _ _ _ _ recased_field_sym F) S') as Q. apply I1 in Q. discriminate.
Qed.
Lemma same_outcome_refl : forall A (R : A -> A -> Prop) x, (forall a, R a a) -> same_outcome R x x.
Proof. intros A R [a|e|k] H; cbn; auto. Qed.
Lemma same_outcome_trans : forall A (R : A -> A -> Prop) x y z, (forall a b c, R a b -> R b c -> R a c) -> same_outcome R x y -> same_outcome R y z -> same_outcome R x z.
Proof. intros A R [a|e|k] [b|f|l] [c|g|m] H; cbn; try contradiction; eauto; congruence. Qed.
Lemma recased_email_refl : forall e, recased_email e e.
Proof. intros e. split; [destruct e; reflexivity|]. induction (unknown_fields e); constructor; auto. split; reflexivity. Qed.
Lemma recased_email_trans : forall a b c, recased_email a b -> recased_email b c -> recased_email a c.
Proof.
  intros a b c [H1 H2] [H3 H4]. split; [rewrite H3, H1; reflexivity|]. clear H1 H3. revert H4. generalize (unknown_fields c). induction H2 as [|x y l l' [X1 X2] F IH]; intros l'' H4; inversion H4; subst; constructor.
  - destruct H1 as [Y1 Y2]. split; [|congruence]. unfold same_nocase in *. congruence.
  - auto.
Qed.
Lemma recase_email : forall E d d', env_ok E -> recased_text d d' -> same_outcome recased_email (parse E d) (parse E d').
Proof.
  intros E d d' HE H. induction H as [d|pre n n' r d Hpre Ht Hn H IH]; [apply same_outcome_refl; apply recased_email_refl|].
  eapply same_outcome_trans; [exact recased_email_trans|now apply (recase_step E pre n n' r)|exact IH].
Qed.

(* Consequences of SoundMessage.v: Email::parse as a function of the list of fields and the body. *)
From Coq Require Import Lia ZifyBool ZifyNat ZifyN Permutation.
From Verif Require Import Base Utf8 CharSets Combinators Time Address MimeFields Fields Message Entity Email Envs Rfc5322 CodecSpec
  RfcFields EmailSpec Post SoundBase SoundFields SoundMessage.

(* ---- the specification is functional ---- *)
Lemma email_of_fun : forall E fs b e e', email_of E fs b e -> email_of E fs b e' -> e = e'.
Proof.
  intros E fs b e e' H H'. destruct e, e'. destruct H, H'. cbn in *.
  assert (from = from0) by (destruct (f_from E); congruence).
  assert (date_of = date_of0) by (destruct (f_date E); [destruct of_date, of_date0|]; congruence).
  assert (sender = sender0) by (destruct (f_sender E); [destruct of_sender, of_sender0|]; congruence).
  assert (mime_entity = mime_entity0).
  { destruct (f_mime E); [|congruence]. destruct of_mime as (v & Hv & ->), of_mime0 as (v' & Hv' & ->).
    replace v' with v; auto. destruct b; [eapply transfer_fun; eauto|congruence]. }
  subst. reflexivity.
Qed.
Lemma pick_app : forall A (sel : field -> option A) a b, pick sel (a ++ b) = pick sel a ++ pick sel b.
Proof. intros. unfold pick. now rewrite map_app, concat_app. Qed.
Lemma first_repeat_dup : forall fs n, first_repeat fs n -> ~ NoDup (pick singular fs).
Proof.
  intros fs n (pre & f & post & -> & Hf & Hin & _) H. rewrite pick_app in H. unfold pick at 2 in H. cbn [map concat] in H. rewrite Hf in H. cbn [opt_list app] in H.
  apply NoDup_remove_2 in H. apply H. apply in_or_app. now left.
Qed.
Lemma first_repeat_fun : forall fs n n', first_repeat fs n -> first_repeat fs n' -> n = n'.
Proof.
  assert (A : forall pre f pt pre' f' pt', pre ++ f :: pt = pre' ++ f' :: pt' ->
    forall n n', singular f = Some n -> In n (pick singular pre) -> NoDup (pick singular pre') -> singular f' = Some n' -> In n' (pick singular pre') -> NoDup (pick singular pre) -> n = n').
  { intros pre. induction pre as [|g pre IH]; intros f pt pre' f' pt' H n n' Hf Hin Hd Hf' Hin' Hd'; [destruct Hin|].
    destruct (app_eq_app _ _ _ _ H) as (u & [[H1 H2]|[H1 H2]]).
    - destruct u as [|x u]; [cbn in H2; inversion H2; subst; congruence|].
      cbn [app] in H2. injection H2 as H2 _. exfalso. rewrite H1 in Hd'. apply (first_repeat_dup (pre' ++ x :: u) n'); auto. exists pre', x, u. rewrite <- H2. auto.
    - destruct u as [|x u]; [cbn in H2; inversion H2; subst; congruence|].
      cbn [app] in H2. injection H2 as H2 _. exfalso. rewrite H1 in Hd. apply (first_repeat_dup ((g :: pre) ++ x :: u) n); auto. exists (g :: pre), x, u. rewrite <- H2. auto. }
  intros fs n n' (pre & f & pt & -> & Hf & Hin & Hd) (pre' & f' & pt' & H & Hf' & Hin' & Hd'). eapply A; eauto.
Qed.
Lemma email_not_error : forall E fs b e err, env_ok E -> email_of E fs b e -> email_error E fs b err -> False.
Proof.
  intros E fs b e err HE H H'. destruct H'.
  - eapply first_repeat_dup; eauto. apply (of_unique _ _ _ _ H).
  - pose proof (of_from _ _ _ _ H) as X. rewrite H1 in X. apply only_none in H2. congruence.
  - pose proof (of_date _ _ _ _ H) as X. rewrite H1 in X. destruct X as [X Y]. apply only_none in H2. congruence.
  - pose proof (of_sender _ _ _ _ H) as X. rewrite H1 in X. destruct X as [X Y]. apply only_none in H2. rewrite H2 in X.
    pose proof (of_from _ _ _ _ H) as F. pose proof (ok_sender E HE H1) as HF. rewrite HF in *. unfold authors in H3. rewrite F in H3.
    cbn [sender_of] in X. destruct (from e) as [|m [|]]; congruence.
  - pose proof (of_mime _ _ _ _ H) as X. rewrite H1 in X. subst b. destruct X as (v & Hv & _). eapply H3; eauto.
Qed.
Definition same_error (a b : error) : Prop := a = b \/ exists w w', a = Unknown w /\ b = Unknown w'.
Lemma email_error_fun : forall E fs b x y, email_error E fs b x -> email_error E fs b y -> same_error x y.
Proof.
  intros E fs b x y H H'. unfold same_error.
  assert (D : forall n, first_repeat fs n -> NoDup (pick singular fs) -> False) by (intros n Hn; apply (first_repeat_dup fs n Hn)).
  destruct H; destruct H'; try (left; reflexivity); try (exfalso; eapply D; eassumption);
    try (left; f_equal; eapply first_repeat_fun; eassumption); try (exfalso; intuition congruence); try (right; eauto; fail).
  - exfalso. match goal with H : f_sender E = true -> _ |- _ => specialize (H ltac:(auto)) end. apply only_none in H1. rewrite H1 in *.
    destruct (if f_from E then authors fs else []) as [|m [|]]; cbn in *; try congruence. eapply H2; eauto.
  - exfalso. match goal with H : f_sender E = true -> _ |- _ => specialize (H ltac:(auto)) end.
    match goal with H : pick is_sender fs = [] |- _ => apply only_none in H; rewrite H in * end.
    destruct (if f_from E then authors fs else []) as [|m [|]]; cbn in *; try congruence. eapply H9; eauto.
Qed.

(* ---- Email::parse in terms of the message ---- *)
Lemma parse_assemble : forall E data fs b, parse_message E data = Ok (fs, b) ->
  parse E data = (let* a := set_fields acc0 fs in finish E a b).
Proof. intros E data fs b H. unfold parse. now rewrite H. Qed.
Theorem parse_iff_email : forall E data fs b e, env_ok E -> parse_message E data = Ok (fs, b) ->
  parse E data = Ok e <-> email_of E fs b e.
Proof.
  intros E data fs b e HE HM. rewrite (parse_assemble _ _ _ _ HM). pose proof (assemble_spec E fs b) as A.
  destruct (let* a := set_fields acc0 fs in finish E a b) as [e'|err|k]; [| |contradiction].
  - split; [now inversion 1; subst|]. intros H. f_equal. eapply email_of_fun; eauto.
  - split; [discriminate|]. intros H. exfalso. eapply email_not_error; eauto.
Qed.
Theorem parse_iff_error : forall E data fs b err, env_ok E -> parse_message E data = Ok (fs, b) -> email_error E fs b err ->
  exists err', parse E data = Err err' /\ same_error err err'.
Proof.
  intros E data fs b err HE HM He. rewrite (parse_assemble _ _ _ _ HM). pose proof (assemble_spec E fs b) as A.
  destruct (let* a := set_fields acc0 fs in finish E a b) as [e'|err'|k]; [| |contradiction].
  - exfalso. eapply email_not_error; eauto.
  - eexists. split; eauto. eapply email_error_fun; eauto.
Qed.
Lemma parse_ok_message : forall E data e, parse E data = Ok e -> exists fs b, parse_message E data = Ok (fs, b).
Proof. intros E data e H. unfold parse in H. destruct (parse_message E data) as [[fs b]|err|k]; try discriminate. eauto. Qed.

Lemma many_forall2 : forall A (P : bytes -> A -> Prop) c l, many_of P c l -> exists ts, c = concat ts /\ Forall2 P ts l.
Proof.
  intros A P c l H. induction H as [|c a cs l Hc Hl (ts & -> & H)]; [exists []; auto|]. exists (c :: ts). split; [reflexivity|]. now constructor.
Qed.
Definition ends_crlf (t : bytes) : Prop := exists u, t = u ++ CRLF.
Lemma header_ends : forall A name (V : bytes -> A -> Prop) c v, rfc_header name V c v -> ends_crlf c.
Proof. intros A name V c v []. eexists. rewrite ?app_assoc. reflexivity. Qed.
Lemma many_ends : forall A (P : bytes -> A -> Prop) c l, (forall c a, P c a -> ends_crlf c) -> many_of P c l -> c = [] /\ l = [] \/ ends_crlf c.
Proof.
  intros A P c l HP H. induction H as [|c a cs l Hc Hl IH]; [now left|]. right. destruct IH as [[-> ->]|[u ->]].
  - rewrite app_nil_r. eauto.
  - exists (c ++ u). now rewrite <- app_assoc.
Qed.
Lemma resent_ends : forall b EW c f, rfc_resent b EW c f -> ends_crlf c.
Proof. intros b EW c f []; eapply header_ends; eauto. Qed.
Lemma field_ends : forall E c f, field_text E c f -> ends_crlf c.
Proof.
  intros E c f H. destruct H; try (eapply header_ends; eassumption).
  - match goal with H : many_of (rfc_resent _ _) _ _ |- _ => apply many_ends in H; [|intros; eapply resent_ends; eauto] end.
    match goal with H : many_of (rfc_header _ _) _ _ |- _ => apply many_ends in H; [|intros; eapply header_ends; eauto] end.
    assert (ends_crlf c2) as [u ->] by intuition congruence.
    match goal with H : _ \/ ends_crlf c3 |- _ => destruct H as [[-> ->]|[u' ->]] end.
    + exists (c1 ++ u). now rewrite app_nil_r, <- app_assoc.
    + exists (c1 ++ (u ++ CRLF) ++ u'). now rewrite <- !app_assoc.
  - match goal with H : rfc_unknown _ _ _ |- _ => destruct H end. eexists. rewrite ?app_assoc. reflexivity.
Qed.
Theorem no_byte_lost : forall E data e, env_ok E -> parse E data = Ok e ->
  exists texts fs b, Forall2 (field_text E) texts fs /\ Forall ends_crlf texts /\
    (b = None /\ data = concat texts \/ exists t, b = Some t /\ data = concat texts ++ CRLF ++ t) /\ email_of E fs b e.
Proof.
  intros E data e HE H. pose proof (sound_parse E data HE) as S. rewrite H in S. destruct S as (fs & b & HM & _ & He).
  destruct HM as [c fs c' b Hc Hr]. apply many_forall2 in Hc as (ts & -> & Hc). exists ts, fs, b. split; [exact Hc|split; [|split; [|exact He]]].
  - clear -Hc. induction Hc; constructor; auto. eapply field_ends; eauto.
  - destruct Hr as [|t]; [left; now rewrite app_nil_r|right; eauto].
Qed.

(* ---- at most one ---- *)
Lemma pick_unique : forall A (sel : field -> option A) n fs, NoDup (pick singular fs) -> (forall f a, sel f = Some a -> singular f = Some n) ->
  pick sel fs = opt_list (only sel fs).
Proof.
  intros A sel n fs Hd Hs. unfold only. induction fs as [|f fs IH]; [reflexivity|].
  unfold pick in *. cbn [map concat] in *. destruct (sel f) as [a|] eqn:F.
  - rewrite (Hs f a F) in Hd. cbn [opt_list app] in *. apply NoDup_cons_iff in Hd as [Hn _]. cbn [hd_error].
    cbn [opt_list]. f_equal. apply (proj2 (pick_nil _ sel fs)). intros g Hg. destruct (sel g) as [x|] eqn:G; auto. exfalso. apply Hn.
    apply (in_pick _ singular). exists g. split; auto. eapply Hs; eauto.
  - cbn [opt_list app] in *. apply IH. destruct (singular f); cbn in Hd; [now apply NoDup_cons_iff in Hd|auto].
Qed.

(* ---- errors ---- *)
Definition singular_names : list string :=
  ["From"; "Sender"; "Subject"; "Date"; "To"; "Cc"; "Bcc"; "Message-ID"; "In-Reply-To"; "References"; "Reply-To"]%string.
Definition mime_names : list string :=
  ["Mime-Version"; "Content-Type"; "Content-Transfer-Encoding"; "Content-Id"; "Content-Description"; "Content-Disposition"]%string.
Lemma singular_name : forall E c f n, field_text E c f -> singular f = Some n -> In n singular_names \/ f_mime E = true /\ In n mime_names.
Proof.
  intros E c f n H Hs. destruct H; cbn [singular] in Hs; inversion Hs; subst;
    try (left; cbn; tauto); right; (split; [assumption|cbn; tauto]).
Qed.
Theorem parse_errors : forall E data err, env_ok E -> f_mime E = false -> parse E data = Err err ->
  err = headers_error \/ err = body_error \/ (exists n, In n singular_names /\ err = DuplicateHeader n) \/
  In err [MissingHeader "From"; MissingHeader "Date"; MissingHeader "Sender"].
Proof.
  intros E data err HE Hm H. pose proof (sound_parse E data HE) as S. rewrite H in S. destruct S as [S|[[_ S]|(fs & b & HM & _ & He)]]; auto.
  destruct HM as [c fs c' b Hc Hr]. right. right. destruct He; try (right; cbn; tauto); [|congruence].
  left. exists n. split; auto. destruct H0 as (pre & f & pt & -> & Hf & _).
  assert (exists t, field_text E t f) as [t Ht].
  { clear -Hc. revert pre Hc. remember (many_of (field_text E) c) as P. subst P. intros pre. revert c. induction pre as [|g pre IH]; intros c H; inversion H; subst; eauto. }
  destruct (singular_name _ _ _ _ Ht Hf) as [|[Hm' _]]; [auto|congruence].
Qed.

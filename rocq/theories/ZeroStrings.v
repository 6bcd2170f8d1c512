(* The strings of an email that is like another; the headers of a mail that are quiet. *)
From Verif Require Import Base Utf8 CharSets Combinators Time Address MimeFields Fields Message Entity Email Envs StringCow StringSpec ZeroCopy ZeroSpec ZeroFacts.
From Verif Require Post SoundMessage LocalFacts LinedFacts.
From Coq Require Import Lia.

Section Covers.
Variables t d f lo ra : cow -> bytes -> Prop.
Definition pick (k : kind) : cow -> bytes -> Prop := match k with Text => t | Domain => d | Fixed => f | Loose => lo | Raw => ra end.
Definition covers (l : list (kind * cow)) : Prop := Forall (fun x => exists v, pick (fst x) (snd x) v) l.
Lemma covers_app : forall a b, covers a -> covers b -> covers (a ++ b).
Proof. intros a b Ha Hb. apply Forall_app. now split. Qed.
Lemma covers_nil : covers [].
Proof. constructor. Qed.
Lemma covers_one : forall k c v, pick k c v -> covers [(k, c)].
Proof. intros k c v H. constructor; [now exists v|constructor]. Qed.
Lemma covers_option : forall A B (g : A -> list (kind * cow)) (R : A -> B -> Prop) x y, (forall a b, R a b -> covers (g a)) -> like_option R x y -> covers (of_option g x).
Proof. intros A B g R [a|] [b|] H HR; try contradiction; [exact (H a b HR)|constructor]. Qed.
Lemma covers_list : forall A B (g : A -> list (kind * cow)) (R : A -> B -> Prop) l l', (forall a b, R a b -> covers (g a)) -> Forall2 R l l' -> covers (flat_map g l).
Proof. intros A B g R l l' H HR. induction HR as [|a b l l' Hab HR IH]; [constructor|]. cbn. apply covers_app; [exact (H a b Hab)|exact IH]. Qed.
Lemma covers_texts : forall l l', Forall2 t l l' -> covers (texts l).
Proof. intros l l' H. induction H as [|a b l l' Hab H IH]; [constructor|]. constructor; [now exists b|exact IH]. Qed.
Lemma covers_address : forall a b, like_address t d a b -> covers (of_address a).
Proof. intros a b [H1 H2]. constructor; [now exists (a_local_part b)|]. constructor; [now exists (a_domain b)|constructor]. Qed.
Lemma covers_mailbox : forall a b, like_mailbox t d a b -> covers (of_mailbox a).
Proof. intros a b [H1 H2]. apply covers_app; [exact (covers_option _ _ _ _ _ _ covers_texts H1)|exact (covers_address _ _ H2)]. Qed.
Lemma covers_entry : forall a b, like_entry t d a b -> covers (of_entry a).
Proof. intros [a|[n l]] [b|[n' l']] H; try contradiction; [exact (covers_mailbox _ _ H)|]. destruct H as [H1 H2]. apply covers_app; [exact (covers_texts _ _ H1)|exact (covers_list _ _ _ _ _ _ covers_mailbox H2)]. Qed.
Lemma covers_entries : forall a b, Forall2 (like_entry t d) a b -> covers (flat_map of_entry a).
Proof. intros a b H. exact (covers_list _ _ _ _ _ _ covers_entry H). Qed.
Lemma covers_mailboxes : forall a b, Forall2 (like_mailbox t d) a b -> covers (flat_map of_mailbox a).
Proof. intros a b H. exact (covers_list _ _ _ _ _ _ covers_mailbox H). Qed.
Lemma covers_id : forall a b, like_id f a b -> covers (of_id a).
Proof. intros a b [H1 H2]. constructor; [now exists (fst b)|]. constructor; [now exists (snd b)|constructor]. Qed.
Lemma covers_ids : forall a b, Forall2 (like_id f) a b -> covers (flat_map of_id a).
Proof. intros a b H. exact (covers_list _ _ _ _ _ _ covers_id H). Qed.
Lemma covers_trace_field : forall a b, like_trace_field t d f a b -> covers (of_trace_field a).
Proof.
  intros [] [] H; try contradiction; cbn [of_trace_field like_trace_field] in *; [constructor|exact (covers_mailboxes _ _ H)|exact (covers_mailbox _ _ H)|exact (covers_entries _ _ H)..|exact (covers_id _ _ H)].
Qed.
Lemma covers_token : forall a b, like_token t d a b -> covers (of_token a).
Proof. intros [] [] H; try contradiction; cbn in *; [exact (covers_one Text _ _ H)|exact (covers_address _ _ H)|exact (covers_one Domain _ _ H)]. Qed.
Lemma covers_trace : forall a b, like_trace t d f a b -> covers (of_trace a).
Proof.
  intros [[rp rc] l] [[rp' rc'] l'] [[H1 H2] H3]. cbn [fst snd of_trace] in *. apply covers_app; [refine (covers_option _ _ _ _ _ _ _ H1); intros a b H; exact (covers_option _ _ _ _ _ _ covers_address H)|].
  apply covers_app; [|exact (covers_list _ _ _ _ _ _ covers_trace_field H3)]. refine (covers_list _ _ _ _ _ _ _ H2). intros a b [H _]. exact (covers_list _ _ _ _ _ _ covers_token H).
Qed.
Lemma covers_unknown : forall a b, like_unknown t f a b -> covers [(Fixed, borrow (fst a)); (Text, snd a)].
Proof. intros a b [H1 H2]. constructor; [now exists (fst b)|]. constructor; [now exists (snd b)|constructor]. Qed.
Lemma covers_params : forall a b, like_map lo lo a b -> covers (of_params a).
Proof. intros a b H. refine (covers_list _ _ _ _ _ _ _ H). intros x y (_ & H1 & H2). constructor; [now exists (fst y)|]. constructor; [now exists (snd y)|constructor]. Qed.
Lemma covers_disposition : forall a b, like_disposition t lo a b -> covers (of_disposition a).
Proof.
  intros a b []. apply covers_app; [destruct (z_disposition_type a), (disposition_type b); try contradiction; [constructor..|exact (covers_one Loose _ _ ld_type)]|].
  apply covers_app; [refine (covers_option _ _ _ _ _ _ _ ld_filename); intros x y H; exact (covers_one Text _ _ H)|exact (covers_params _ _ ld_params)].
Qed.
Lemma covers_entity : forall a b, like_entity t f lo ra a b -> covers (of_entity a).
Proof.
  intros a b []. apply covers_app; [destruct (zr_type a), (e_mime_type b); try contradiction; try constructor; now exists name0 || (exists name; exact lr_type) || constructor|].
  apply covers_app; [exact (covers_one Loose _ _ lr_subtype)|]. apply covers_app; [refine (covers_option _ _ _ _ _ _ _ lr_description); intros x y H; exact (covers_one Text _ _ H)|].
  apply covers_app; [exact (covers_option _ _ _ _ _ _ covers_id lr_id)|]. apply covers_app; [exact (covers_params _ _ lr_parameters)|]. apply covers_app; [exact (covers_option _ _ _ _ _ _ covers_disposition lr_disposition)|].
  apply covers_app; [exact (covers_one Raw _ _ lr_value)|]. refine (covers_list _ _ _ _ _ _ _ lr_additional). intros x y [H1 H2]. constructor; [now exists (fst y)|]. constructor; [now exists (snd y)|constructor].
Qed.
Lemma covers_email : forall z e, like_email t d f lo ra z e -> covers (strings_of z).
Proof.
  intros z e H. destruct H. unfold strings_of.
  apply covers_app; [refine (covers_option _ _ _ _ _ _ _ like_body); intros a b H; exact (covers_one Fixed _ _ H)|].
  apply covers_app; [exact (covers_mailboxes _ _ like_from)|]. apply covers_app; [exact (covers_option _ _ _ _ _ _ covers_mailbox like_sender)|].
  apply covers_app; [refine (covers_option _ _ _ _ _ _ _ like_subject); intros a b H; exact (covers_one Text _ _ H)|].
  apply covers_app; [exact (covers_option _ _ _ _ _ _ covers_entries like_to)|]. apply covers_app; [exact (covers_option _ _ _ _ _ _ covers_entries like_cc)|].
  apply covers_app; [exact (covers_option _ _ _ _ _ _ covers_entries like_bcc)|]. apply covers_app; [exact (covers_option _ _ _ _ _ _ covers_id like_message_id)|].
  apply covers_app; [exact (covers_option _ _ _ _ _ _ covers_ids like_in_reply_to)|]. apply covers_app; [exact (covers_option _ _ _ _ _ _ covers_ids like_references)|].
  apply covers_app; [exact (covers_option _ _ _ _ _ _ covers_entries like_reply_to)|]. apply covers_app; [exact (covers_texts _ _ like_comments)|].
  apply covers_app; [exact (covers_list _ _ _ _ _ _ covers_texts like_keywords)|]. apply covers_app; [exact (covers_list _ _ _ _ _ _ covers_trace like_traces)|]. apply covers_app; [exact (covers_list _ _ _ _ _ _ covers_unknown like_unknowns)|exact (covers_option _ _ _ _ _ _ covers_entity like_mime)].
Qed.
Lemma covers_in : forall l k c, covers l -> In (k, c) l -> exists v, pick k c v.
Proof. intros l k c H Hin. unfold covers in H. rewrite Forall_forall in H. exact (H _ Hin). Qed.
End Covers.

Lemma like_email_mono : forall (t d f lo ra t' d' f' lo' ra' : cow -> bytes -> Prop) z e, (forall c v, t c v -> t' c v) -> (forall c v, d c v -> d' c v) -> (forall c v, f c v -> f' c v) -> (forall c v, lo c v -> lo' c v) -> (forall c v, ra c v -> ra' c v) ->
  like_email t d f lo ra z e -> like_email t' d' f' lo' ra' z e.
Proof.
  intros t d f lo ra t' d' f' lo' ra' z e Ht Hd Hf Hlo Hra H.
  assert (OPT : forall A B (R R' : A -> B -> Prop) x y, (forall a b, R a b -> R' a b) -> like_option R x y -> like_option R' x y) by (intros A B R R' [a|] [b|] HR; cbn; auto).
  assert (LST : forall A B (R R' : A -> B -> Prop) x y, (forall a b, R a b -> R' a b) -> Forall2 R x y -> Forall2 R' x y) by (intros A B R R' x y HR HF; induction HF; constructor; auto).
  assert (PAI : forall A B C G (R R' : A -> B -> Prop) (Q Q' : C -> G -> Prop) x y, (forall a b, R a b -> R' a b) -> (forall a b, Q a b -> Q' a b) -> like_pair R Q x y -> like_pair R' Q' x y) by (intros A B C G R R' Q Q' x y HR HQ [H1 H2]; split; auto).
  assert (ADR : forall a b, like_address t d a b -> like_address t' d' a b) by (intros a b [H1 H2]; split; auto).
  assert (TXT : forall a b, Forall2 t a b -> Forall2 t' a b) by (intros a b; apply LST; exact Ht).
  assert (MBX : forall a b, like_mailbox t d a b -> like_mailbox t' d' a b) by (intros a b [H1 H2]; split; [exact (OPT _ _ _ _ _ _ TXT H1)|auto]).
  assert (ENT : forall a b, like_entry t d a b -> like_entry t' d' a b) by (intros [a|a] [b|b] HX; try contradiction; [exact (MBX _ _ HX)|refine (PAI _ _ _ _ _ _ _ _ _ _ TXT _ HX); intros; exact (LST _ _ _ _ _ _ MBX H0)]).
  assert (IDS : forall a b, like_id f a b -> like_id f' a b) by (intros a b; apply PAI; exact Hf).
  assert (TRF : forall a b, like_trace_field t d f a b -> like_trace_field t' d' f' a b) by (intros [] [] HX; try contradiction; cbn in *; first [exact HX|exact (LST _ _ _ _ _ _ MBX HX)|exact (MBX _ _ HX)|exact (LST _ _ _ _ _ _ ENT HX)|exact (IDS _ _ HX)]).
  assert (TOK : forall a b, like_token t d a b -> like_token t' d' a b) by (intros [] [] HX; try contradiction; cbn in *; auto).
  assert (RCV : forall a b, like_received t d a b -> like_received t' d' a b) by (intros a b; apply PAI; [intros x y; apply LST; exact TOK|auto]).
  assert (TRC : forall a b, like_trace t d f a b -> like_trace t' d' f' a b) by (intros a b; apply PAI; [intros x y; apply PAI; [intros u v; apply OPT; intros u' v'; apply OPT; exact ADR|intros u v; apply LST; exact RCV]|intros x y; apply LST; exact TRF]).
  assert (UNK : forall a b, like_unknown t f a b -> like_unknown t' f' a b) by (intros a b; apply PAI; auto).
  assert (MAP : forall a b, like_map lo lo a b -> like_map lo' lo' a b) by (intros a b; apply LST; intros x y (H1 & H2 & H3); auto).
  assert (DIS : forall a b, like_disposition t lo a b -> like_disposition t' lo' a b).
  { intros a b []. constructor; try assumption; [|exact (OPT _ _ _ _ _ _ Ht ld_filename)|exact (MAP _ _ ld_params)]. destruct (z_disposition_type a), (disposition_type b); try assumption. exact (Hlo _ _ ld_type). }
  assert (NTT : forall a b, like_entity t f lo ra a b -> like_entity t' f' lo' ra' a b).
  { intros a b []. constructor; [destruct (zr_type a), (e_mime_type b); try assumption; exact (Hlo _ _ lr_type)|exact (Hlo _ _ lr_subtype)|exact (OPT _ _ _ _ _ _ Ht lr_description)|exact (OPT _ _ _ _ _ _ IDS lr_id)|exact (MAP _ _ lr_parameters)|exact (OPT _ _ _ _ _ _ DIS lr_disposition)|exact (Hra _ _ lr_value)|refine (LST _ _ _ _ _ _ _ lr_additional); intros x y; apply PAI; assumption]. }
  destruct H. constructor; try assumption; eauto.
Qed.

Lemma infix : forall (D a w j h r : bytes), D = a ++ w ++ j -> D = h ++ r -> length r <= length j -> exists x, h = a ++ w ++ x.
Proof.
  intros D a w j h r H1 H2 HL. exists (firstn (length j - length r) j). assert (LD : length h = length (a ++ w) + (length j - length r)). { assert (length (a ++ w ++ j) = length (h ++ r)) by congruence. rewrite !app_length in *. lia. }
  assert (E : firstn (length h) (h ++ r) = firstn (length h) ((a ++ w) ++ j)) by (rewrite <- app_assoc; congruence).
  rewrite firstn_app, Nat.sub_diag, firstn_all in E. cbn in E. rewrite app_nil_r in E. rewrite E, LD, firstn_app_2, <- app_assoc. reflexivity.
Qed.
Lemma quiet_infix : forall a w x, quiet (a ++ w ++ x) -> quiet w.
Proof.
  intros a w x [H1 H2]. split; [intros H; apply H1; apply in_or_app; right; apply in_or_app; now left|]. intros (b & y & c & -> & Hy). apply H2. exists (a ++ b), y, (c ++ x). split; [|exact Hy]. rewrite <- !app_assoc. reflexivity.
Qed.

Lemma tag_ok : forall e msg i j u, tag e msg i = Ok (j, u) -> i = e ++ j.
Proof.
  intros e msg i j u H. pose (M := {| memory := fun _ => None; base := 0%N; total := length i; literal := 0%N |}).
  pose proof (tag_does M i eq_refl (S (length i)) False) as R. specialize (R ltac:(intros a w k -> HL; rewrite !app_length in HL; lia) ltac:(easy) e msg i (after_refl i)). rewrite H in R. apply R.
Qed.
Lemma headers_same : forall D h c, headers_of D h -> headers_of D c -> length c <= length h -> h = c.
Proof.
  intros D h c Hh Hc L. assert (P : exists x j, h = c ++ x /\ D = c ++ j /\ exists y, j = x ++ y).
  { assert (A : exists y, D = h ++ y) by (destruct (ho_rest _ _ Hh) as [->|[b ->]]; [exists []; now rewrite app_nil_r|eauto]). assert (B : exists y, D = c ++ y) by (destruct (ho_rest _ _ Hc) as [->|[b ->]]; [exists []; now rewrite app_nil_r|eauto]).
    destruct A as [y A], B as [j B]. destruct (infix D [] c j h y B A) as [x X]; [assert (X : length (h ++ y) = length (c ++ j)) by congruence; rewrite !app_length in X; lia|]. cbn [app] in X. exists x, j. split; [exact X|]. split; [exact B|]. exists y. rewrite A, X, <- app_assoc in B. now apply app_inv_head in B. }
  destruct P as (x & j & -> & EJ & y & EY). destruct x as [|a x]; [apply app_nil_r|]. exfalso. subst j. destruct (ho_rest _ _ Hc) as [->|[b ->]]; [apply (f_equal (@length N)) in EJ; rewrite app_length in EJ; cbn in EJ; lia|].
  apply app_inv_head in EJ. injection EJ as <- EJ. assert (N : forall a' b', CRLF ++ c ++ 13%N :: x <> a' ++ CRLF ++ CRLF ++ b') by exact (ho_no_empty _ _ Hh).
  assert (K : exists u, CRLF ++ c = u ++ CRLF). { destruct (ho_lines _ _ Hc) as [->|[u ->]]; [now exists []|]. exists (CRLF ++ u). now rewrite app_assoc. }
  destruct K as [u K]. destruct x as [|x1 x].
  - destruct (ho_lines _ _ Hh) as [X|[v X]]; [destruct c; discriminate|]. change (v ++ CRLF) with (v ++ [13%N] ++ [10%N]) in X. rewrite app_assoc in X. apply app_inj_tail in X as [_ X]. discriminate.
  - injection EJ as <- _. apply (N u x). rewrite app_assoc, K, <- app_assoc. reflexivity.
Qed.
Lemma headers_unique : forall D h c, headers_of D h -> headers_of D c -> h = c.
Proof. intros D h c Hh Hc. destruct (Nat.le_ge_cases (length c) (length h)) as [L|L]; [exact (headers_same _ _ _ Hh Hc L)|symmetry; exact (headers_same _ _ _ Hc Hh L)]. Qed.
Lemma body_after : forall j b, Message.body j = Ok b -> j = [] \/ exists x, j = CRLF ++ x.
Proof. intros [|c j] b H; [now left|]. right. unfold Message.body in H. destruct (tag _ _ _) as [[j' u]|x|x] eqn:T; try discriminate. apply tag_ok in T. eauto. Qed.
Lemma mime_body_after : forall j b, mime_body j = Ok b -> j = [] \/ exists x, j = CRLF ++ x.
Proof. intros [|c j] b H; [now left|]. right. unfold mime_body in H. destruct (tag _ _ _) as [[j' u]|x|x] eqn:T; try discriminate. apply tag_ok in T. eauto. Qed.
(* what the fields of a mail leave *)
Lemma parse_rest : forall E D e, env_ok E -> parse E D = Ok e -> exists c j fs, fields E D = Ok (j, fs) /\ D = c ++ j /\ headers_of D c.
Proof.
  intros E D e HK H. unfold parse, parse_message in H. destruct (fields E D) as [[j fs]|x|x] eqn:F; try discriminate. cbn [bind] in H.
  assert (B : j = [] \/ exists x, j = CRLF ++ x). { destruct (if f_mime E then mime_body j else Message.body j) as [b|x|x] eqn:B; try discriminate. destruct (f_mime E); [exact (mime_body_after _ _ B)|exact (body_after _ _ B)]. }
  destruct (LocalFacts.fields_stop E D j fs HK F) as (c & EC & S). exists c, j, fs. split; [reflexivity|]. split; [exact EC|]. constructor.
  - destruct S as [->|[a ->]]; [now left|right; now exists a].
  - pose proof (SoundMessage.sound_fields_env E D HK) as P. rewrite F in P. destruct P as (c' & EC' & P). assert (c' = c) by (rewrite EC in EC'; now apply app_inv_tail in EC'). subst c'.
    apply (LinedFacts.hlines_many _ _ _ _ (LinedFacts.field_hlines E)) in P. apply LinedFacts.hlines_nolf in P. intros a b X. apply (P (a ++ [13%N]) (10%N :: b)). rewrite X, <- app_assoc. reflexivity.
  - destruct B as [->|[x ->]]; [left; rewrite EC; apply app_nil_r|right; exists x; exact EC].
Qed.

Section Results.
Variables (m : mem) (p : N) (lit : literals) (E : env) (D : bytes).
Hypothesis HK : env_ok E.
Hypothesis HA : at_address m p D.
Hypothesis HL : loaded m lit.
(* the emails read the same *)
Lemma parse_same : match z_parse m p lit E D, parse E D with
  | Ok z, Ok e => like_email (StringSpec.is_text m) (StringSpec.is_text m) (StringSpec.is_text m) (StringSpec.is_text m) (is_bytes m) z e
  | Err x, Err y => x = y
  | Crash x, Crash y => x = y
  | _, _ => False
  end.
Proof.
  assert (H := parse_does m p lit E D HK HA HL (S (length D)) True). specialize (H ltac:(intros a w j -> HLj; rewrite !app_length in HLj; lia) ltac:(intros _ a w j -> HLj; rewrite !app_length in HLj; lia)).
  destruct (z_parse m p lit E D), (parse E D); try exact H. destruct H as [H _]. revert H. apply like_email_mono; [intros c v []; assumption|intros c v []; assumption|intros c v [[] ?]; assumption|intros c v []; assumption|intros c v []; assumption].
Qed.
Lemma parse_slices : forall z, z_parse m p lit E D = Ok z -> forall k c, In (k, c) (strings_of z) -> (slice_in p (p + N.of_nat (length D)) c \/ k = Loose /\ is_literal lit c) /\ (k = Fixed -> is_borrowed c).
Proof.
  intros z Hz k c Hin. assert (H := parse_does m p lit E D HK HA HL (S (length D)) True). specialize (H ltac:(intros a w j -> HLj; rewrite !app_length in HLj; lia) ltac:(intros _ a w j -> HLj; rewrite !app_length in HLj; lia)).
  rewrite Hz in H. destruct (parse E D); try contradiction. destruct H as [H _]. apply covers_email in H. destruct (covers_in _ _ _ _ _ _ _ _ H Hin) as [v Hv].
  destruct k; cbn in Hv; [split; [left; apply Hv|discriminate]|split; [left; apply Hv|discriminate]| | |].
  - destruct Hv as [[_ Hs] Hb]. split; [now left|now intros _].
  - destruct Hv as [_ [Hs|Hs]]; (split; [|discriminate]); [now left|right; now split].
  - split; [left; apply Hv|discriminate].
Qed.
Lemma parse_quiet : forall z h, z_parse m p lit E D = Ok z -> headers_of D h -> quiet_for E h ->
  forall k c, In (k, c) (strings_of z) -> k = Text \/ k = Domain /\ ~ In 91%N h -> is_borrowed c.
Proof.
  intros z h Hz Hh Hq k c Hin Hk. assert (PE : exists e, parse E D = Ok e).
  { pose proof parse_same as S. rewrite Hz in S. destruct (parse E D); try contradiction. eauto. }
  destruct PE as [e He]. destruct (parse_rest E D e HK He) as (c0 & j & fs & HF & HD & Hc). rewrite (headers_unique D c0 h Hc Hh) in HD.
  assert (H := parse_does m p lit E D HK HA HL (length j) (~ In 91%N h)).
  specialize (H ltac:(intros a w j' H1 H2; destruct (infix _ _ _ _ _ _ H1 HD H2) as [x ->]; destruct Hq as [Hq1 Hq2]; split; [exact (quiet_infix _ _ _ Hq1)|intros HM (u & v & ->); apply (Hq2 HM); exists (a ++ u), (v ++ x); now rewrite <- !app_assoc])).
  specialize (H ltac:(intros HN a w j' H1 H2 H3; destruct (infix _ _ _ _ _ _ H1 HD H2) as [x ->]; apply HN; apply in_or_app; right; apply in_or_app; now left)).
  rewrite Hz, He in H. destruct H as [_ H]. specialize (H j fs HF (le_n _)). apply covers_email in H. destruct (covers_in _ _ _ _ _ _ _ _ H Hin) as [v Hv]. destruct Hk as [->|[-> HN]]; cbn in Hv; [exact Hv|exact (Hv HN)].
Qed.
End Results.

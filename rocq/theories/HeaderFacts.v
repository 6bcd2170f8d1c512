(* Facts about headers and messages behind C22 and C41. *)
From Coq Require Import Lia ZifyBool ZifyNat ZifyN Permutation.
From Verif Require Import Base Utf8 CharSets Combinators Whitespace QuotedString Common Time Address Percent MimeFields Fields Message Entity Email Envs
  Rfc5322 Rfc2047 Post CodecSpec RfcFields SoundBase SoundTime TagNoCase ParamProofs SoundFields EmailSpec SoundMessage EmailProofs Steps Complete CompleteFields Forward ForwardText
  ForwardMimeFields ForwardTrace ForwardFields ForwardMessage.
Local Open Scope N_scope.

(* ---- messages ---- *)
Lemma rest_bare : forall c b, rest_text c b -> bare c.
Proof. intros c b []; [now left|right; eauto]. Qed.
Lemma message_forward : forall E data fs b, env_ok E -> clear_message E data fs b -> (f_mime E = false -> forall t, b = Some t -> body_text t) ->
  exists fs', parse_message E data = Ok (fs', b) /\ Forall2 same_field fs fs'.
Proof.
  intros E data fs b HE [c1 t c2 l c3 b' H1 Ht H2 H3] Hb. destruct (fields_forward E c1 t c2 l c3) as (l' & Hf & R); auto; [apply HE|eapply rest_bare; eauto|].
  exists (t ++ l'). split.
  - unfold parse_message. rewrite Hf. cbn [bind]. destruct H3 as [|b'].
    + destruct (f_mime E); reflexivity.
    + destruct (f_mime E); [change (mime_body (CRLF ++ b')) with (let* (r, _) := tag CRLF "TAG ERROR: Headers must be followed by a CRLF sequence." (CRLF ++ b') in Ok (Some r)); rewrite tag_app; reflexivity|]. destruct (body_spec b') as [[_ ->]|[N _]]; [reflexivity|]. exfalso. apply N. now apply Hb.
  - apply Forall2_app; auto. apply same_field_list_refl.
Qed.
Lemma same_pick : forall A (sel : field -> option A) fs fs', (forall f g, same_field f g -> sel f = sel g) -> Forall2 same_field fs fs' -> pick sel fs = pick sel fs'.
Proof. intros A sel fs fs' H F. unfold pick. induction F; cbn; auto. rewrite (H _ _ H0). now f_equal. Qed.
Lemma same_only : forall A (sel : field -> option A) fs fs', (forall f g, same_field f g -> sel f = sel g) -> Forall2 same_field fs fs' -> only sel fs = only sel fs'.
Proof. intros. unfold only. f_equal. now apply same_pick. Qed.
Ltac same_sel := let H := fresh in intros ? ? H; destruct H; reflexivity.
Lemma acceptable_same : forall E fs fs' b, Forall2 same_field fs fs' -> acceptable E fs b -> acceptable E fs' b.
Proof.
  intros E fs fs' b F [H1 H2 H3 H4 H5 H6].
  rewrite (same_pick _ singular fs fs') in H1 by (auto; same_sel). rewrite (same_pick _ is_from fs fs') in H2, H4 by (auto; same_sel). rewrite (same_pick _ is_date fs fs') in H3 by (auto; same_sel).
  rewrite (same_pick _ is_sender fs fs') in H4 by (auto; same_sel). rewrite (same_only _ is_cte fs fs') in H5 by (auto; same_sel). now constructor.
Qed.
Lemma acceptable_email : forall E data fs b, env_ok E -> parse_message E data = Ok (fs, b) -> acceptable E fs b -> exists e, parse E data = Ok e /\ email_of E fs b e.
Proof.
  intros E data fs b HE HM [H1 H2 H3 H4 H5 H6]. rewrite (parse_assemble _ _ _ _ HM). pose proof (assemble_spec E fs b) as A.
  destruct (let* a := set_fields acc0 fs in finish E a b) as [e|err|k]; [eauto| |contradiction]. exfalso. destruct A as [n R|_ F N|_ F N _|_ F N M _ _|t w _ F Hb N _ _ _].
  - now apply first_repeat_dup in R.
  - now apply H2.
  - now apply H3.
  - destruct (H4 F) as [X|[m X]]; [congruence|]. pose proof (ok_sender E HE F) as Ff. rewrite Ff in M. apply (M m). unfold authors, only. now rewrite X.
  - destruct (H5 F t Hb) as [v X]. now apply (N v).
Qed.
Lemma message_accepted : forall E data fs b, env_ok E -> clear_message E data fs b -> acceptable E fs b ->
  exists fs' e, Forall2 same_field fs fs' /\ parse E data = Ok e /\ email_of E fs' b e.
Proof.
  intros E data fs b HE HM HA. destruct (message_forward E data fs b HE HM) as (fs' & H & R); [apply HA|]. apply (acceptable_same E fs fs') in HA; auto.
  destruct (acceptable_email E data fs' b HE H HA) as (e & H1 & H2). eauto.
Qed.

(* ---- headers that fall back to unknown ---- *)
Definition structured_parsers (E : env) : list (parser field) :=
  cfg (f_date E) (pmap FDate (field_date E)) ++
  cfg (f_from E) (pmap FFrom (field_from E)) ++
  cfg (f_sender E) (pmap FSender (field_sender E)) ++
  cfg (f_reply_to E) (pmap FReplyTo (field_reply_to E)) ++
  cfg (f_to E) (pmap FTo (field_to E)) ++
  cfg (f_cc E) (pmap FCc (field_cc E)) ++
  cfg (f_bcc E) (pmap FBcc (field_bcc E)) ++
  cfg (f_message_id E) (pmap FMessageId (field_message_id E)) ++
  cfg (f_in_reply_to E) (pmap FInReplyTo (field_in_reply_to E)) ++
  cfg (f_references E) (pmap FReferences (field_references E)) ++
  cfg (f_subject E) (pmap FSubject (field_subject E)) ++
  cfg (f_comments E) (pmap FComments (field_comments E)) ++
  cfg (f_mime E) (pmap (fun '(a, b) => FMimeVersion a b) (mime_version E)) ++
  cfg (f_mime E) (pmap (fun '(t, s, p) => FContentType t s p) (content_type E)) ++
  cfg (f_mime E) (pmap FContentTransferEncoding (content_transfer_encoding E)) ++
  cfg (f_mime E) (pmap FContentId (content_id E)) ++
  cfg (f_mime E) (pmap FContentDescription (content_description E)) ++
  cfg (f_mime E) (pmap FContentDisposition (content_disposition E)) ++
  cfg (f_keywords E) (pmap FKeywords (field_keywords E)).
Lemma match_app : forall A (a b : list (parser A)) i, match_parsers (a ++ b) i = match match_parsers a i with Err _ => match_parsers b i | x => x end.
Proof. intros A a b i. induction a as [|p a IH]; [reflexivity|]. cbn [app match_parsers]. destruct (p i) as [x|e|k]; cbn [attempt]; auto. Qed.
Lemma any_field_split : forall E i, any_field E i = match match_parsers (structured_parsers E) i with Err _ => match_parsers [pmap (fun '(n, v) => FUnknown n v) (unknown E)] i | x => x end.
Proof. intros E i. rewrite <- match_app. unfold any_field, field_parsers, structured_parsers. now rewrite <- !app_assoc. Qed.
Lemma match_ok : forall A (l : list (parser A)) i x, match_parsers l i = Ok x -> exists p, In p l /\ p i = Ok x.
Proof.
  intros A l i x. induction l as [|p l IH]; cbn [match_parsers]; [discriminate|]. destruct (p i) eqn:P; cbn [attempt]; intros H; [|destruct (IH H) as (q & Hq & Q); exists q; split; [now right|auto]|discriminate].
  exists p. split; [now left|]. congruence.
Qed.
Definition is_structured (f : field) : Prop := is_unknown f = None.
Lemma structured_ok : forall E i r f, match_parsers (structured_parsers E) i = Ok (r, f) -> is_structured f.
Proof.
  intros E i r f H. apply match_ok in H as (p & Hp & H).
  assert (G : Forall (fun p : parser field => forall i r f, p i = Ok (r, f) -> is_structured f) (structured_parsers E)).
  { assert (M : forall A (F : A -> field) (p : parser A), (forall a, is_structured (F a)) -> forall i r f, pmap F p i = Ok (r, f) -> is_structured f).
    { intros A F q HF i' r' f'. unfold pmap. destruct (q i') as [[x a]|e|k]; cbn; try discriminate. inversion 1; subst. apply HF. }
    unfold structured_parsers. repeat (apply Forall_cfg; [intros _; apply M; first [reflexivity|intros [[? ?] ?]; reflexivity|intros [? ?]; reflexivity]|]).
    rewrite <- (app_nil_r (cfg _ _)). apply Forall_cfg; [intros _; apply M; reflexivity|constructor]. }
  rewrite Forall_forall in G. eapply G; eauto.
Qed.
Lemma any_field_no_crash : forall E i k, env_ok E -> (debug E = false \/ f_mime E = false) -> any_field E i <> Crash k.
Proof.
  intros E i k HE H X. destruct (f_mime E) eqn:M.
  - destruct H as [H|]; [|discriminate]. pose proof (sound_any_field E i (ok_hash E HE)) as S. rewrite X in S. destruct S as [S _]. congruence.
  - pose proof (sound_any_field_nomime E (fun _ => False) i M) as S. now rewrite X in S.
Qed.
Lemma any_field_sound : forall E i r f, env_ok E -> any_field E i = Ok (r, f) -> exists c, i = c ++ r /\ field_text E c f.
Proof. intros E i r f HE H. pose proof (sound_any_field E i (ok_hash E HE)) as S. rewrite H in S. exact S. Qed.
Lemma unknown_forward : forall E n c v i, chars1 rfc_ftext n -> clear_text_value (f_unrecognized_headers E) (textcode E) c v -> ends is_wsp i ->
  unknown E (n ++ [58] ++ c ++ CRLF ++ i) = Ok (i, (n, v)).
Proof.
  intros E n c v i Hn Hv Hi. unfold unknown. rewrite (take_while1_app is_ftext rfc_ftext n ([58] ++ c ++ CRLF ++ i) ftext_spec ftext_ascii Hn) by reflexivity.
  cbn [bind]. change (bs ":") with [58]. rewrite tag_app. cbn [bind]. rewrite (text_value_forward _ E c v i Hv Hi). cbn [bind]. rewrite tag_app. reflexivity.
Qed.
(* a header line is a structured header, or kept as an unknown one *)
Lemma header_line : forall E n c v i, env_ok E -> (debug E = false \/ f_mime E = false) -> chars1 rfc_ftext n ->
  clear_text_value (f_unrecognized_headers E) (textcode E) c v -> ends is_wsp i ->
  any_field E (n ++ [58] ++ c ++ CRLF ++ i) = Ok (i, FUnknown n v) \/
  exists x r f, n ++ [58] ++ c ++ CRLF ++ i = x ++ r /\ field_text E x f /\ is_structured f /\ any_field E (n ++ [58] ++ c ++ CRLF ++ i) = Ok (r, f).
Proof.
  intros E n c v i HE HK Hn Hv Hi. set (data := n ++ [58] ++ c ++ CRLF ++ i). pose proof (any_field_split E data) as S. destruct (match_parsers (structured_parsers E) data) as [[r f]|e|k] eqn:M.
  - right. destruct (any_field_sound E data r f HE S) as (x & Ex & Hx). exists x, r, f. split; [exact Ex|]. split; [exact Hx|]. split; [exact (structured_ok _ _ _ _ M)|exact S].
  - left. rewrite S. cbn [match_parsers]. unfold pmap. unfold data. rewrite (unknown_forward E n c v i Hn Hv Hi). reflexivity.
  - exfalso. exact (any_field_no_crash E data k HE HK S).
Qed.
Lemma malformed_kept : forall E n c v i, env_ok E -> (debug E = false \/ f_mime E = false) -> chars1 rfc_ftext n ->
  clear_text_value (f_unrecognized_headers E) (textcode E) c v -> ends is_wsp i ->
  (forall x r f, n ++ [58] ++ c ++ CRLF ++ i = x ++ r -> field_text E x f -> is_unknown f <> None) ->
  any_field E (n ++ [58] ++ c ++ CRLF ++ i) = Ok (i, FUnknown n v).
Proof.
  intros E n c v i HE HK Hn Hv Hi Hno. destruct (header_line E n c v i HE HK Hn Hv Hi) as [X|(x & r & f & Ex & Hx & Hs & _)]; [exact X|]. exfalso. exact (Hno x r f Ex Hx Hs).
Qed.

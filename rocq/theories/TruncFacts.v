(* C73: mails that are cut off. *)
From Coq Require Import Lia.
From Verif Require Import Base Utf8 Combinators Time Address MimeFields Fields Message Entity Email Envs Rfc5322 CodecSpec Base64Proofs RfcFields EmailSpec SoundMessage EmailProofs SafetyProofs Steps ForwardFields ForwardMessage HeaderFacts LineSpec LocalSpec LocalFacts LineFacts
  MessageFacts RefuseFacts ShownFacts MultipartSpec CutSpec CutFacts TruncSpec.
Local Open Scope N_scope.

(* ---- a cut inside of a header line ---- *)
Theorem cut_inside : forall E d, env_ok E -> debug E = false \/ f_mime E = false -> in_headers d -> inside_line d -> parse E d = Err (Explicit "TAG ERROR: Headers must be followed by a CRLF sequence.").
Proof.
  intros E d HE HD [H1 H2] [N1 N2]. destruct (fields_total E HE HD d) as (r & fs & F). destruct (fields_stop E d r fs HE F) as (c & -> & Ec).
  unfold parse, parse_message. rewrite F. cbn [bind]. rewrite body_stop; [reflexivity| |].
  - intros ->. rewrite app_nil_r in *. destruct Ec as [->|[u ->]]; [now apply N1|now apply (N2 u)].
  - destruct (starts_with r CRLF) eqn:S; [|reflexivity]. exfalso. destruct r as [|x [|y r]]; [discriminate| |].
    + cbn [CRLF starts_with] in S. destruct (13 =? x); discriminate.
    + cbn [CRLF starts_with] in S. apply andb_true_iff in S as [S1 S]. apply andb_true_iff in S as [S2 _]. apply N.eqb_eq in S1, S2. subst x y.
      destruct Ec as [->|[u ->]]; [now apply (H1 r)|]. apply (H2 u r). rewrite <- app_assoc. reflexivity.
Qed.

(* ---- a cut between two headers ---- *)
Lemma only_kept : forall A (sel : field -> option A) l1 l2, kept (only sel l1) (only sel (l1 ++ l2)).
Proof. intros A sel l1 l2. unfold only. rewrite pick_app. destruct (pick sel l1); [now left|now right]. Qed.
Lemma pick_beginning : forall A (sel : field -> option A) l1 l2, beginning (pick sel l1) (pick sel (l1 ++ l2)).
Proof. intros A sel l1 l2. exists (pick sel l2). apply pick_app. Qed.
Lemma only_some : forall A (sel : field -> option A) l1 l2 a, only sel l1 = Some a -> only sel (l1 ++ l2) = Some a.
Proof. intros A sel l1 l2 a H. destruct (only_kept A sel l1 l2) as [X|X]; congruence. Qed.
Lemma left_emails : forall E l1 l2 b e e', email_of E (l1 ++ l2) b e -> email_of E l1 None e' -> left_email e' e.
Proof.
  intros E l1 l2 b e e' H H'.
  assert (HF : from e' = from e). { pose proof (of_from _ _ _ _ H) as X. pose proof (of_from _ _ _ _ H') as X'. destruct (f_from E); [|congruence]. apply (only_some _ _ _ l2) in X'. congruence. }
  constructor; auto.
  - pose proof (of_body _ _ _ _ H') as X. now destruct (f_mime E).
  - pose proof (of_date _ _ _ _ H) as X. pose proof (of_date _ _ _ _ H') as X'. destruct (f_date E); [|congruence]. destruct X as [X _], X' as [X' N]. destruct (date_of e') as [d|]; [|easy]. apply (only_some _ _ _ l2) in X'. congruence.
  - pose proof (of_sender _ _ _ _ H) as X. pose proof (of_sender _ _ _ _ H') as X'. destruct (f_sender E); [|left; congruence]. destruct X as [X _], X' as [X' N]. rewrite HF in X'.
    destruct (only_kept _ is_sender l1 l2) as [K|K]; [|left; congruence]. rewrite K in X'. cbn [sender_of] in X'. destruct (from e) as [|a [|a' l]]; [congruence| |congruence]. right. eauto.
  - rewrite (of_subject _ _ _ _ H), (of_subject _ _ _ _ H'). apply only_kept.
  - rewrite (of_to _ _ _ _ H), (of_to _ _ _ _ H'). apply only_kept.
  - rewrite (of_cc _ _ _ _ H), (of_cc _ _ _ _ H'). apply only_kept.
  - rewrite (of_bcc _ _ _ _ H), (of_bcc _ _ _ _ H'). apply only_kept.
  - rewrite (of_message_id _ _ _ _ H), (of_message_id _ _ _ _ H'). apply only_kept.
  - rewrite (of_in_reply_to _ _ _ _ H), (of_in_reply_to _ _ _ _ H'). apply only_kept.
  - rewrite (of_references _ _ _ _ H), (of_references _ _ _ _ H'). apply only_kept.
  - rewrite (of_reply_to _ _ _ _ H), (of_reply_to _ _ _ _ H'). apply only_kept.
  - rewrite (of_comments _ _ _ _ H), (of_comments _ _ _ _ H'). apply pick_beginning.
  - rewrite (of_keywords _ _ _ _ H), (of_keywords _ _ _ _ H'). rewrite pick_app, concat_app. eexists. reflexivity.
  - rewrite (of_trace _ _ _ _ H), (of_trace _ _ _ _ H'). apply pick_beginning.
  - rewrite (of_unknown _ _ _ _ H), (of_unknown _ _ _ _ H'). apply pick_beginning.
  - pose proof (of_mime _ _ _ _ H) as X. pose proof (of_mime _ _ _ _ H') as X'. destruct (f_mime E); [|rewrite X, X'; constructor]. destruct X as (v & _ & ->), X' as (v' & -> & ->).
    constructor; cbn [e_description e_id e_disposition e_value e_additional_headers]; try apply only_kept; auto. unfold full_type. cbn [e_mime_type e_subtype e_parameters]. rewrite <- !surjective_pairing.
    destruct (only_kept _ is_content_type l1 l2) as [K|K]; rewrite K; [right|left]; reflexivity.
Qed.
Lemma nodup_left : forall (A : Type) (a b : list A), NoDup (a ++ b) -> NoDup a.
Proof. intros A a b H. induction a as [|x a IH]; [constructor|]. cbn [app] in H. inversion H; subst. constructor; auto. intros I. apply H2, in_or_app. now left. Qed.
Theorem cut_between : forall E pre post e, env_ok E -> Forall proper_line pre -> new_line post -> (f_trace E = true -> ~ starts_trace post) -> parse E (block_text pre ++ post) = Ok e ->
  (exists e', parse E (block_text pre) = Ok e' /\ left_email e' e) \/ exists n, mandatory_name n /\ parse E (block_text pre) = Err (MissingHeader n).
Proof.
  intros E pre post e HE Hp Hi HT H. destruct (parse_ok_message _ _ _ H) as (fs & b & M). pose proof (proj1 (parse_iff_email _ _ _ _ _ HE M) H) as O.
  apply (message_split E pre post fs b HE Hp Hi HT) in M as (l1 & l2 & -> & M & _). rewrite (parse_assemble _ _ _ _ M). pose proof (assemble_spec E l1 None) as A.
  destruct (let* a := set_fields acc0 l1 in finish E a None) as [e'|err|k]; [| |contradiction].
  - left. exists e'. split; [reflexivity|]. eapply left_emails; eauto.
  - right. assert (U : NoDup (pick singular l1)). { pose proof (of_unique _ _ _ _ O) as U. rewrite pick_app in U. eapply nodup_left; eauto. }
    unfold mandatory_name. destruct A as [n R| | | |t w _ _ X]; [exfalso; eapply first_repeat_dup; eauto|eauto 6|eauto 6|eauto 6|discriminate].
Qed.
(* a cut after the last header *)
Definition with_entity (e : email) (m : option raw_entity_t) : email :=
  {| body_of := body_of e; from := from e; sender := sender e; subject := subject e; date_of := date_of e; to := to e; cc := cc e; bcc := bcc e;
     message_id_of := message_id_of e; in_reply_to := in_reply_to e; references := references e; reply_to := reply_to e; comments := comments e; keywords := keywords e;
     trace_of := trace_of e; mime_entity := m; unknown_fields := unknown_fields e |}.
Definition with_value (r : raw_entity_t) (v : bytes) : raw_entity_t :=
  {| e_mime_type := e_mime_type r; e_subtype := e_subtype r; e_description := e_description r; e_id := e_id r; e_parameters := e_parameters r; e_disposition := e_disposition r; e_value := v;
     e_additional_headers := e_additional_headers r |}.
Lemma same_fields_headers : forall E fs b b' e e', email_of E fs b e -> email_of E fs b' e' -> same_headers e e'.
Proof.
  intros E fs b b' e e' [] []. assert (FR : from e = from e'). { destruct (f_from E); congruence. }
  constructor; try congruence.
  - rewrite FR in *. destruct (f_sender E); [destruct of_sender as [-> _], of_sender0 as [-> _]; reflexivity|congruence].
  - destruct (f_date E); [destruct of_date as [<- _], of_date0 as [<- _]; reflexivity|congruence].
  - destruct (f_mime E); [|rewrite of_mime, of_mime0; constructor]. destruct of_mime as (v & _ & ->), of_mime0 as (v' & _ & ->). constructor; reflexivity.
Qed.
Theorem cut_after : forall E pre b e, env_ok E -> Forall proper_line pre -> parse E (block_text pre ++ CRLF ++ b) = Ok e ->
  exists e', parse E (block_text pre) = Ok e' /\ body_of e' = None /\ same_headers e e' /\ match mime_entity e' with Some r => e_value r = [] | None => True end.
Proof.
  intros E pre b e HE Hp H. destruct (parse_ok_message _ _ _ H) as (fs & b' & M). pose proof (proj1 (parse_iff_email _ _ _ _ _ HE M) H) as O.
  assert (B : bare (CRLF ++ b)) by (right; eauto).
  assert (NL : new_line (CRLF ++ b)). { intros c r [= <- _] W. unfold rfc_WSP in W. lia. }
  assert (NT : ~ starts_trace (CRLF ++ b)).
  { intros (name & n & r & I & X & Z). unfold same_nocase in X. unfold tracing in I. cbn [In] in I.
    repeat destruct I as [<-|I]; try contradiction; (destruct n as [|x n]; [discriminate X|]; injection Z as <- _; cbn [map] in X; vm_compute in X; discriminate X). }
  apply (message_split E pre (CRLF ++ b) fs b' HE Hp NL (fun _ => NT)) in M as (l1 & l2 & -> & M & M2).
  assert (l2 = []) as ->.
  { apply message_ok in M2 as (r & F & _). apply (fields_of_steps E _ _ _ HE) in F; [|intros _; now apply bare_no_trace]. destruct (any_field_bare E _ B) as [x X]. inversion F as [i y Y|i r1 a l r' Y]; subst; [reflexivity|congruence]. }
  rewrite app_nil_r in O. pose proof O as O'.
  assert (X : exists e', email_of E l1 None e').
  { exists (with_body (with_entity e (option_map (fun r => with_value r []) (mime_entity e))) None). destruct O' as [O1 O2 O3 O4 O5 O6 O7 O8 O9 O10 O11 O12 O13 O14 O15 O16 O17 O18].
    constructor; auto.
    - destruct (f_mime E); reflexivity.
    - destruct (f_mime E); [|now cbn; rewrite O18]. destruct O18 as (v & _ & O18). exists []. split; [reflexivity|]. cbn. rewrite O18. reflexivity. }
  destruct X as [e' O2]. exists e'. split; [now apply (parse_iff_email _ _ _ _ _ HE M)|].
  split; [pose proof (of_body _ _ _ _ O2) as X; now destruct (f_mime E)|]. split; [eapply same_fields_headers; eauto|].
  pose proof (of_mime _ _ _ _ O2) as X. destruct (f_mime E); [|now rewrite X]. destruct X as (v & -> & ->). reflexivity.
Qed.

(* ---- a cut in the body ---- *)
Lemma lines_cut : forall n b1 b2, (length b1 <= n)%nat -> (forall c, b1 <> c ++ [13]) -> exists l x h t, lines_of b1 = l ++ [x] /\ lines_of (b1 ++ b2) = l ++ (x ++ h) :: t.
Proof.
  induction n as [|n IH]; intros b1 b2 Hn Hb; (destruct b1 as [|c r]; [destruct (lines_nonempty b2) as (h & t & Hl); exists [], [], h, t; cbn [app]; now rewrite Hl|]); [cbn in Hn; lia|].
  destruct (starts_with (c :: r) CRLF) eqn:S.
  - destruct r as [|d r]; [cbn [CRLF starts_with] in S; destruct (13 =? c); discriminate|]. cbn [CRLF starts_with] in S. apply andb_true_iff in S as [S1 S]. apply andb_true_iff in S as [S2 _]. apply N.eqb_eq in S1, S2. subst c d.
    destruct (IH r b2) as (l & x & h & t & L1 & L2); [cbn in Hn; lia|intros a ->; now apply (Hb (13 :: 10 :: a))|]. exists ([] :: l), x, h, t.
    change (13 :: 10 :: r) with ([] ++ CRLF ++ r). rewrite <- !app_assoc, !lines_of_app by constructor. rewrite L1, L2. split; reflexivity.
  - destruct (IH r b2) as (l & x & h & t & L1 & L2); [cbn in Hn; lia|intros a ->; now apply (Hb (c :: a))|].
    assert (S2 : starts_with ((c :: r) ++ b2) CRLF = false).
    { destruct r as [|d r]; [|clear -S; revert S; cbn [app CRLF starts_with]; destruct (13 =? c), (10 =? d); intros X; try reflexivity; destruct r; discriminate X]. cbn [app CRLF starts_with]. destruct (N.eqb_spec 13 c) as [<-|_]; [|reflexivity]. exfalso. now apply (Hb []). }
    cbn [app] in *. rewrite (lines_cons c r S), (lines_cons c (r ++ b2) S2), L1, L2. destruct l as [|y l]; [exists [], (c :: x), h, t|exists ((c :: y) :: l), x, h, t]; split; reflexivity.
Qed.
Lemma body_cut : forall b1 b2, body_text (b1 ++ b2) -> (forall c, b1 <> c ++ [13]) -> body_text b1.
Proof.
  intros b1 b2 H Hb. destruct (lines_cut (length b1) b1 b2 (le_n _) Hb) as (l & x & h & t & L1 & L2). unfold body_text in *. rewrite L2 in H. rewrite L1. apply Forall_app in H as [H1 H2]. inversion H2 as [|y z [Hl Hc] _]; subst.
  apply Forall_app. split; [exact H1|]. constructor; [|constructor]. rewrite app_length in Hl. split; [apply (Nat.le_trans _ (length x + length h)); [apply Nat.le_add_r|exact Hl]|]. unfold chars in *. now apply Forall_app in Hc.
Qed.
Lemma body_no_cr : forall n c, (length c <= n)%nat -> ~ body_text (c ++ [13]).
Proof.
  induction n as [|n IH]; intros c Hn H; (destruct c as [|x r]; [inversion H as [|l t [_ Hc] _]; subst; inversion Hc as [|y z Hy _]; subst; unfold rfc_text in Hy; lia|]); [cbn in Hn; lia|].
  cbn [app] in H. destruct (starts_with (x :: r ++ [13]) CRLF) eqn:S.
  - destruct r as [|d r]; [cbn [app CRLF starts_with] in S; destruct (13 =? x); discriminate|]. cbn [app CRLF starts_with] in S. apply andb_true_iff in S as [S1 S]. apply andb_true_iff in S as [S2 _]. apply N.eqb_eq in S1, S2. subst x d.
    apply (IH r); [cbn in Hn; lia|]. unfold body_text in *. change (13 :: (10 :: r) ++ [13]) with ([] ++ CRLF ++ r ++ [13]) in H. rewrite lines_of_app in H by constructor. now inversion H.
  - apply (IH r); [cbn in Hn; lia|]. unfold body_text in *. rewrite (lines_cons _ _ S) in H. destruct (lines_nonempty (r ++ [13])) as (h & t & L). rewrite L in *. cbn [add_to_first] in H. inversion H as [|y z [Hl Hc] Ht]; subst. constructor; [|exact Ht].
    split; [cbn [length] in Hl; apply (Nat.le_trans _ (Datatypes.S (length h))); [apply Nat.le_succ_diag_r|exact Hl]|]. now inversion Hc.
Qed.
Theorem cut_body : forall E h b1 b2 e, env_ok E -> f_mime E = false -> header_block h -> parse E (h ++ CRLF ++ CRLF ++ b1 ++ b2) = Ok e ->
  (forall c, b1 <> c ++ [13]) -> parse E (h ++ CRLF ++ CRLF ++ b1) = Ok (with_body e (Some b1)).
Proof.
  intros E h b1 b2 e HE HM Hh H Hb. destruct (parse_ok_message _ _ _ H) as (fs & x & M). destruct (body_no_influence E h (b1 ++ b2) b1 fs x HE Hh M) as (-> & M' & _).
  pose proof (proj1 (parse_iff_email _ _ _ _ _ HE M) H) as O. apply message_ok in M as (_ & _ & _ & _ & Bt). specialize (Bt HM _ eq_refl).
  specialize (M' (fun _ => body_cut b1 b2 Bt Hb)). apply (parse_iff_email _ _ _ _ _ HE M'). destruct O. constructor; try assumption; [now rewrite HM|]. rewrite HM in *. assumption.
Qed.
Theorem cut_body_cr : forall E h c b2 e, env_ok E -> f_mime E = false -> header_block h -> parse E (h ++ CRLF ++ CRLF ++ (c ++ [13]) ++ b2) = Ok e ->
  parse E (h ++ CRLF ++ CRLF ++ c ++ [13]) = Err (Explicit "TAG ERROR: In a body, a line must end with a CRLF sequence.").
Proof.
  intros E h c b2 e HE HM Hh H. destruct (parse_ok_message _ _ _ H) as (fs & x & M). clear H. set (b := (c ++ [13]) ++ b2) in *. pose proof (fields_body E h b (c ++ [13]) HE) as F. unfold parse, parse_message in *. rewrite HM in *.
  destruct (fields E (h ++ CRLF ++ CRLF ++ b)) as [[r l]|e1|k] eqn:X, (fields E (h ++ CRLF ++ CRLF ++ c ++ [13])) as [[r' l']|e'|k']; cbn in F; try contradiction; try discriminate.
  destruct F as [-> [(z & -> & ->)|[-> ->]]]; cbn [bind] in *.
  - exfalso. apply fields_stop in X as (a & X & Ha); auto. pose proof (header_block_stop h a z (CRLF ++ b) (CRLF ++ b) Hh X Ha) as S.
    lazymatch type of M with context [body ?i] => pose proof (body_stop false i) as Y end. cbn iota in Y. rewrite Y in M; [discriminate|destruct z; discriminate|exact S].
  - pose proof (proj1 (body_reject (c ++ [13])) (body_no_cr _ _ (le_n _))) as Y. lazymatch goal with |- context [body ?i] => change (body i) with (body (CRLF ++ c ++ [13])) end. rew_bind Y. reflexivity.
Qed.

(* ---- a cut in a multipart ---- *)
Lemma sections_rest : forall b i ps rest, sections b i ps rest -> exists t, i = t ++ rest.
Proof.
  intros b i ps rest H. induction H as [r ps rest _ [t ->]|i p r ps rest _ [-> _] _ [t ->]|i _ _].
  - exists (dash_boundary b ++ CRLF ++ t). now rewrite <- !app_assoc.
  - exists (p ++ delimiter b ++ t). now rewrite <- !app_assoc.
  - now exists [].
Qed.
Theorem cut_multipart : forall E r b, e_mime_type r = CMultipart -> map_get (e_parameters r) (bs "boundary") = Some b -> ~ occurs (closing_delimiter b) (e_value r) ->
  entity E r = Err (Unknown "closing boundary not found").
Proof.
  intros E r b Hm Hb N. unfold entity. rewrite Hm. destruct (multipart_outcome E b (e_value r) _ Hb) as [(parts & [ps rest last epilogue preamble Hs [Hc _] _] & _)|[_ X]].
  - exfalso. apply N. destruct (sections_rest _ _ _ _ Hs) as [t Ht]. exists (t ++ last), epilogue. rewrite Ht, Hc. now rewrite <- app_assoc.
  - rewrite X. reflexivity.
Qed.

(* Soundness, part 5: bodies, messages, the assembly of an Email, entities, multiparts. *)
From Coq Require Import ZArith Lia ZifyBool ZifyNat ZifyN Permutation.
From Verif Require Import Base Utf8 CharSets Combinators Charset Percent Time Address MimeFields Fields Message Entity Email Envs
  Rfc5322 Rfc2047 CodecSpec RfcFields EmailSpec Post CodecArith Base64Proofs QPProofs PercentProofs
  SoundBase SoundTime SoundAddr TagNoCase ParamProofs SoundFields.

(* ---- bodies ---- *)
Lemma line_loop_spec : forall n i a r, line_loop n i = (a, r) ->
  i = a ++ r /\ chars rfc_text a /\ length a <= n /\
  (r = [] \/ length a = n \/ exists c r', r = c :: r' /\ ~ rfc_text c).
Proof.
  induction n as [|n IH]; intros i a r H; cbn in H.
  - inversion H; subst. repeat split; auto; constructor.
  - destruct i as [|c i]; [inversion H; subst; repeat split; auto; [constructor|cbn; lia]|].
    destruct (is_text c) eqn:Hc.
    + destruct (line_loop n i) as [a' r'] eqn:L. inversion H; subst. destruct (IH _ _ _ L) as (-> & H1 & H2 & H3).
      repeat split; [constructor; [now apply text_spec|exact H1]|cbn; lia|].
      destruct H3 as [H3|[H3|H3]]; auto. right. left. cbn. lia.
    + inversion H; subst. repeat split; [constructor|cbn; lia|]. right. right. exists c, i. split; auto.
      intros T. apply text_spec in T. congruence.
Qed.
Lemma text_no_cr : forall a, chars rfc_text a -> no_cr a.
Proof. intros a H. eapply Forall_impl; [|exact H]. intros c [_ [_ Hc]]. exact Hc. Qed.
Lemma lines_cons : forall c r, starts_with (c :: r) CRLF = false -> lines_of (c :: r) = add_to_first c (lines_of r).
Proof.
  intros c r H. destruct r as [|d r]; [reflexivity|]. cbn [lines_of]. destruct ((c =? 13) && (d =? 10))%N eqn:X; [|reflexivity].
  apply andb_true_iff in X as [X1 X2]. apply N.eqb_eq in X1 as ->. apply N.eqb_eq in X2 as ->.
  pose proof (starts_with_app CRLF r) as Y. cbn [app CRLF] in Y. unfold CRLF in *. rewrite Y in H. discriminate.
Qed.
Lemma lines_nonempty : forall b, exists h t, lines_of b = h :: t.
Proof. intros. destruct (lines_of_prefix [] b ltac:(constructor)) as (h & t & H & _). eauto. Qed.
Lemma lines_first : forall c r, starts_with (c :: r) CRLF = false -> exists h t, lines_of (c :: r) = (c :: h) :: t.
Proof. intros c r H. rewrite lines_cons by auto. destruct (lines_nonempty r) as (h & t & ->). cbn. eauto. Qed.
Definition body_error : error := Explicit "TAG ERROR: In a body, a line must end with a CRLF sequence.".
Definition headers_error : error := Explicit "TAG ERROR: Headers must be followed by a CRLF sequence.".
Lemma body_loop_spec : forall n i, length i < n ->
  (body_text i /\ body_loop n i = Ok tt) \/ (~ body_text i /\ body_loop n i = Err body_error).
Proof.
  induction n as [|n IH]; intros i Hn; [lia|]. cbn [body_loop]. unfold check_line.
  destruct (line_loop 998 i) as [a r] eqn:L. cbn [bind]. apply line_loop_spec in L as (-> & Ha & Hl & Hr).
  pose proof (text_no_cr a Ha) as Hcr.
  match goal with |- context [tag CRLF ?m r] => destruct (tag_inv CRLF m r) as [(r' & -> & ->)|(Hs & ->)] end.
  - rewrite app_length in Hn. cbn in Hn. unfold body_text. rewrite lines_of_app by auto.
    destruct (IH r' ltac:(lia)) as [[H1 H2]|[H1 H2]]; rewrite H2; [left|right]; split; auto.
    + constructor; auto. split; auto.
    + intros X. inversion X; subst. auto.
  - destruct r as [|c r].
    + left. split; auto. unfold body_text. rewrite app_nil_r, lines_of_one by auto. constructor; auto. split; auto.
    + right. split; auto. unfold body_text. destruct (lines_of_prefix a (c :: r) Hcr) as (h & t & H1 & H2).
      rewrite H2. destruct (lines_first c r Hs) as (h' & t' & H3). rewrite H3 in H1. inversion H1; subst.
      intros X. inversion X as [|? ? [X1 X2] _]; subst. rewrite app_length in X1. cbn [length] in X1.
      destruct Hr as [Hr|[Hr|(c' & r' & Hr & Hc)]]; [discriminate|lia|]. inversion Hr; subst.
      apply Forall_app in X2 as [_ X2]. inversion X2; subst. auto.
Qed.
Lemma body_text_ascii : forall b, body_text b -> ascii b.
Proof.
  intros b. unfold body_text. remember (length b) as n eqn:Hn. revert b Hn.
  induction n as [n IH] using lt_wf_ind; intros b -> H. destruct b as [|c b]; [constructor|].
  destruct (starts_with (c :: b) CRLF) eqn:S.
  - apply starts_with_spec in S as [r S]. rewrite S in *. pose proof (lines_of_app [] r ltac:(constructor)) as L. cbn [app] in L. rewrite L in H. inversion H; subst.
    constructor; [unfold ascii_byte; lia|]. constructor; [unfold ascii_byte; lia|]. eapply (IH (length r)); eauto. cbn. lia.
  - rewrite lines_cons in H by auto. destruct (lines_nonempty b) as (h & t & L). rewrite L in H. cbn in H.
    inversion H as [|? ? [H1 H2] H3]; subst. inversion H2; subst.
    constructor; [unfold ascii_byte, rfc_text in *; lia|]. eapply (IH (length b)); eauto.
    rewrite L. constructor; auto. split; auto. cbn in H1. lia.
Qed.
Theorem body_spec : forall b,
  (body_text b /\ body (CRLF ++ b) = Ok (Some b)) \/ (~ body_text b /\ body (CRLF ++ b) = Err body_error).
Proof.
  intros b. unfold body. cbn [app CRLF]. change (13%N :: 10%N :: b) with (CRLF ++ b). rewrite tag_app. cbn [bind].
  destruct (body_loop_spec (S (length b)) b ltac:(lia)) as [[H1 H2]|[H1 H2]]; rewrite H2; cbn [bind]; [left|right]; split; auto.
  pose proof (unchecked_from_app CRLF b) as U. cbn [length CRLF app] in U. cbn [CRLF app]. rewrite U. cbn [bind]. rewrite str_unchecked_ascii by now apply body_text_ascii. reflexivity.
Qed.
Lemma body_outcome : forall i, match body i with
  | Ok None => i = []
  | Ok (Some b) => i = CRLF ++ b /\ body_text b
  | Err e => (e = headers_error /\ i <> [] /\ starts_with i CRLF = false) \/
             (e = body_error /\ exists b, i = CRLF ++ b /\ ~ body_text b)
  | Crash _ => False
  end.
Proof.
  intros [|c i]; [reflexivity|]. destruct (starts_with (c :: i) CRLF) eqn:S.
  - apply starts_with_spec in S as [b ->]. destruct (body_spec b) as [[H1 H2]|[H1 H2]]; rewrite H2; eauto.
  - unfold body. match goal with |- context [tag CRLF ?m (c :: i)] => destruct (tag_inv CRLF m (c :: i)) as [(r' & E & _)|(_ & ->)] end.
    + rewrite E, starts_with_app in S. discriminate.
    + cbn. left. repeat split; auto. discriminate.
Qed.
Lemma mime_body_outcome : forall i, match mime_body i with
  | Ok None => i = []
  | Ok (Some b) => i = CRLF ++ b
  | Err e => e = headers_error /\ i <> [] /\ starts_with i CRLF = false
  | Crash _ => False
  end.
Proof.
  intros [|c i]; [reflexivity|]. unfold mime_body.
  match goal with |- context [tag CRLF ?m (c :: i)] => destruct (tag_inv CRLF m (c :: i)) as [(r' & E & ->)|(S & ->)] end.
  - exact E.
  - cbn. repeat split; auto. discriminate.
Qed.
Lemma body_lines_spec : forall n i, length i < n ->
  (body_text i /\ body_lines_loop n i = Ok (lines_of i)) \/ (~ body_text i /\ body_lines_loop n i = Err body_error).
Proof.
  induction n as [|n IH]; intros i Hn; [lia|]. cbn [body_lines_loop]. unfold line.
  destruct (line_loop 998 i) as [a r] eqn:L. cbn [bind]. apply line_loop_spec in L as (-> & Ha & Hl & Hr).
  pose proof (text_no_cr a Ha) as Hcr.
  rewrite str_unchecked_ascii by (eapply chars_ascii; [|exact Ha]; unfold rfc_text; lia). cbn [bind].
  match goal with |- context [tag CRLF ?m r] => destruct (tag_inv CRLF m r) as [(r' & -> & ->)|(Hs & ->)] end.
  - rewrite app_length in Hn. cbn in Hn. unfold body_text. rewrite lines_of_app by auto.
    destruct (IH r' ltac:(lia)) as [[H1 H2]|[H1 H2]]; rewrite H2; [left|right]; split; auto.
    + constructor; auto. split; auto.
    + intros X. inversion X; subst. auto.
  - destruct r as [|c r].
    + left. unfold body_text. rewrite app_nil_r, lines_of_one by auto. split; [|reflexivity]. constructor; auto. split; auto.
    + right. split; auto. unfold body_text. destruct (lines_of_prefix a (c :: r) Hcr) as (h & t & H1 & H2).
      rewrite H2. destruct (lines_first c r Hs) as (h' & t' & H3). rewrite H3 in H1. inversion H1; subst.
      intros X. inversion X as [|? ? [X1 X2] _]; subst. rewrite app_length in X1. cbn [length] in X1.
      destruct Hr as [Hr|[Hr|(c' & r' & Hr & Hc)]]; [discriminate|lia|]. inversion Hr; subst.
      apply Forall_app in X2 as [_ X2]. inversion X2; subst. auto.
Qed.

(* ---- messages ---- *)
(* the only crash that can be reached: the u8 counter of parameter continuations, in a
   checked build with mime *)
Definition mime_overflow (E : env) (c : crash) : Prop :=
  f_mime E = true /\ overflow E c.

Lemma sound_any_field_nomime : forall E K i, f_mime E = false -> post K (any_field E i) i (field_text E).
Proof.
  intros E K i Hm. unfold any_field. apply post_Forall_match. unfold field_parsers. rewrite Hm. cbn [cfg app].
  repeat (apply Forall_cfg; [intros HE; apply post_pmap|]).
  all: try (apply Forall_cons; [|apply Forall_nil]; apply post_pmap).
  - plain_header "Date"%string; [apply (sound_date_value E K)|]. intros; now apply text_date.
  - plain_header "From"%string; [apply (sound_mailbox_list E K)|]. intros; now apply text_from.
  - plain_header "Sender"%string; [apply (sound_mailbox E K)|]. intros; now apply text_sender.
  - plain_header "Reply-To"%string; [apply (sound_address_list E K)|]. intros; now apply text_reply_to.
  - plain_header "To"%string; [apply (sound_address_list E K)|]. intros; now apply text_to.
  - plain_header "Cc"%string; [apply (sound_address_list E K)|]. intros; now apply text_cc.
  - plain_header "Bcc"%string; [apply (sound_bcc_value E K)|]. intros; now apply text_bcc.
  - plain_header "Message-ID"%string; [apply (sound_message_id E K)|]. intros; now apply text_message_id.
  - plain_header "In-Reply-To"%string; [apply (sound_msg_ids E K)|]. intros; now apply text_in_reply_to.
  - plain_header "References"%string; [apply (sound_msg_ids E K)|]. intros; now apply text_references.
  - plain_header "Subject"%string; [apply (sound_text_value E K)|]. intros; now apply text_subject.
  - plain_header "Comments"%string; [apply (sound_text_value E K)|]. intros; now apply text_comments.
  - plain_header "Keywords"%string; [apply (sound_keywords_value E K)|]. intros; now apply text_keywords.
  - eapply post_weaken; [apply (sound_unknown E K)|]. intros c [n v] H. now apply text_unknown.
Qed.
Lemma sound_fields_env : forall E i, env_ok E -> post (mime_overflow E) (fields E i) i (many_of (field_text E)).
Proof.
  intros E i HE. destruct (f_mime E) eqn:Hm.
  - eapply post_weakenK; [apply sound_fields, HE|]. intros k H. split; auto.
  - unfold fields. eapply post_bind with (P := many_of (field_text E)).
    + destruct (f_trace E) eqn:Ht; [|apply post_ok; constructor]. apply post_many; [intros; eapply field_text_nonempty; eauto|].
      intros. now apply sound_trace_block.
    + intros c r t _ Ht. cbn beta iota. eapply post_bind.
      * apply (post_many _ _ (any_field E) (field_text E)); [intros; eapply field_text_nonempty; eauto|]. intros. now apply sound_any_field_nomime.
      * intros c' r' l _ Hl. cbn beta iota. apply post_ok. rewrite app_nil_r. now apply many_of_app.
Qed.

(* what parse_message returns *)
Definition message_outcome (E : env) (data : bytes) (x : res (list field * option bytes)) : Prop :=
  match x with
  | Ok (fs, b) => message_text E data fs b /\ (f_mime E = false -> forall t, b = Some t -> body_text t)
  | Err e => e = headers_error \/ (f_mime E = false /\ e = body_error)
  | Crash k => mime_overflow E k
  end.
Lemma many_fuel_no_err : forall A n (p : parser A) i e, many_fuel n p i <> Err e.
Proof.
  intros A n. induction n as [|n IH]; intros p i e; cbn; [discriminate|].
  destruct (p i) as [[r a]|x|k]; cbn; try discriminate. specialize (IH p r). destruct (many_fuel n p r) as [[r' l]|x|k]; cbn; try discriminate. intros _. eapply IH; eauto.
Qed.
Lemma fields_no_err : forall E i e, fields E i <> Err e.
Proof.
  intros E i e. unfold fields.
  assert (H : forall e, (if f_trace E then many (trace_block E) i else Ok (i, [])) <> Err e).
  { intros e'. destruct (f_trace E); [apply many_fuel_no_err|discriminate]. }
  destruct (if f_trace E then _ else _) as [[r l]|x|k]; cbn [bind]; [|intros _; eapply H; eauto|discriminate].
  unfold many. destruct (many_fuel _ _ r) as [[r' l']|x|k] eqn:M; cbn [bind]; try discriminate. now apply many_fuel_no_err in M.
Qed.
Theorem sound_message : forall E data, env_ok E -> message_outcome E data (parse_message E data).
Proof.
  intros E data HE. unfold parse_message. pose proof (sound_fields_env E data HE) as H. pose proof (fields_no_err E data) as N.
  destruct (fields E data) as [[r fs]|e|k]; cbn [bind]; [|exfalso; eapply N; eauto|exact H].
  cbn in H. destruct H as (c & -> & H). destruct (f_mime E) eqn:Hm.
  - pose proof (mime_body_outcome r) as B. destruct (mime_body r) as [[b|]|e|k]; cbn [bind message_outcome]; try contradiction.
    + subst r. split; [|congruence]. constructor; auto. constructor.
    + subst r. split; [|congruence]. constructor; auto. constructor.
    + left. apply B.
  - pose proof (body_outcome r) as B. destruct (body r) as [[b|]|e|k]; cbn [bind message_outcome]; try contradiction.
    + destruct B as [-> B]. split; [constructor; auto; constructor|]. intros _ t [= <-]. exact B.
    + subst r. split; [|discriminate]. constructor; auto. constructor.
    + destruct B as [[-> _]|[-> _]]; auto.
Qed.

(* ---- the assembly of an Email ---- *)
Lemma pick_snoc : forall A (sel : field -> option A) fs f, pick sel (fs ++ [f]) = pick sel fs ++ opt_list (sel f).
Proof. intros. unfold pick. rewrite map_app, concat_app. cbn. now rewrite app_nil_r. Qed.
Lemma only_snoc : forall A (sel : field -> option A) fs f,
  only sel (fs ++ [f]) = match only sel fs with Some a => Some a | None => sel f end.
Proof.
  intros. unfold only. rewrite pick_snoc. destruct (pick sel fs) as [|a l]; cbn; auto. destruct (sel f); reflexivity.
Qed.
Lemma in_pick : forall A (sel : field -> option A) fs a, In a (pick sel fs) <-> exists f, In f fs /\ sel f = Some a.
Proof.
  intros A sel fs a. unfold pick. rewrite in_concat. split.
  - intros (l & Hl & Ha). apply in_map_iff in Hl as (f & <- & Hf). exists f. split; auto. destruct (sel f); cbn in Ha; [|contradiction].
    destruct Ha as [->|[]]. reflexivity.
  - intros (f & Hf & Ha). exists (opt_list (sel f)). split; [apply in_map_iff; eauto|]. rewrite Ha. now left.
Qed.
Lemma only_none : forall A (sel : field -> option A) fs, only sel fs = None <-> pick sel fs = [].
Proof. intros. unfold only. destruct (pick sel fs); cbn; split; congruence. Qed.
Lemma pick_nil : forall A (sel : field -> option A) fs, pick sel fs = [] <-> forall f, In f fs -> sel f = None.
Proof.
  intros A sel fs. split.
  - intros H f Hf. destruct (sel f) as [a|] eqn:S; auto. assert (X : In a (pick sel fs)) by (apply in_pick; eauto). rewrite H in X. destruct X.
  - intros H. destruct (pick sel fs) as [|a l] eqn:P; auto. assert (X : In a (pick sel fs)) by (rewrite P; now left).
    apply in_pick in X as (f & Hf & S). rewrite (H f Hf) in S. discriminate.
Qed.
Lemma only_some : forall A (sel : field -> option A) fs a, only sel fs = Some a -> exists f, In f fs /\ sel f = Some a.
Proof. intros A sel fs a H. apply in_pick. unfold only in H. destruct (pick sel fs); inversion H; subst. now left. Qed.

(* the local variables of Email::parse after the fields of the list *)
Definition acc_of (fs : list field) : acc :=
  {| v_from := only is_from fs; v_sender := only is_sender fs; v_subject := only is_subject fs; v_date := only is_date fs;
     v_to := only is_to fs; v_cc := only is_cc fs; v_bcc := only is_bcc fs; v_message_id := only is_message_id fs;
     v_in_reply_to := only is_in_reply_to fs; v_references := only is_references fs; v_reply_to := only is_reply_to fs;
     v_comments := pick is_comments fs; v_keywords := concat (pick is_keywords fs); v_trace := pick is_trace fs;
     v_mime_version := only is_mime_version fs; v_content_type := only is_content_type fs; v_cte := only is_cte fs;
     v_content_id := only is_content_id fs; v_content_description := only is_content_description fs;
     v_content_disposition := only is_content_disposition fs; v_unknown := pick is_unknown fs |}.
Ltac acc_ok := f_equal; unfold acc_of; rewrite !only_snoc, !pick_snoc; cbn; rewrite ?opt_id, ?app_nil_r, ?concat_app; cbn;
  rewrite ?app_nil_r; repeat match goal with H : only _ _ = None |- _ => rewrite H end; reflexivity.
Lemma set_field_spec : forall pre f, 
  match singular f with
  | Some n => (In n (pick singular pre) /\ set_field (acc_of pre) f = Err (DuplicateHeader n)) \/
              (~ In n (pick singular pre) /\ set_field (acc_of pre) f = Ok (acc_of (pre ++ [f])))
  | None => set_field (acc_of pre) f = Ok (acc_of (pre ++ [f]))
  end.
Proof.
  intros pre f. destruct f; cbn [singular set_field acc_of v_from v_sender v_subject v_date v_to v_cc v_bcc v_message_id v_in_reply_to
    v_references v_reply_to v_comments v_keywords v_trace v_mime_version v_content_type v_cte v_content_id v_content_description
    v_content_disposition v_unknown];
  try (match goal with |- context [set_once (only ?sel pre) _ _] => destruct (only sel pre) eqn:O end; cbn [set_once bind];
    [left; split; [apply in_pick; apply only_some in O as (f & Hf & S); exists f; split; [exact Hf|destruct f; try discriminate; reflexivity]|reflexivity]
    |right; split; [intros X; apply in_pick in X as (f & Hf & S); apply only_none in O;
       pose proof (proj1 (pick_nil _ _ _) O f Hf); destruct f; discriminate|acc_ok]]);
  try acc_ok.
Qed.
Lemma set_fields_spec : forall fs pre, NoDup (pick singular pre) ->
  (NoDup (pick singular (pre ++ fs)) /\ set_fields (acc_of pre) fs = Ok (acc_of (pre ++ fs))) \/
  (exists n, first_repeat (pre ++ fs) n /\ set_fields (acc_of pre) fs = Err (DuplicateHeader n)).
Proof.
  induction fs as [|f fs IH]; intros pre Hp; [left; rewrite app_nil_r; auto|]. cbn [set_fields].
  pose proof (set_field_spec pre f) as S. replace (pre ++ f :: fs) with ((pre ++ [f]) ++ fs) by now rewrite <- app_assoc.
  destruct (singular f) as [n|] eqn:Hn.
  - destruct S as [[S1 ->]|[S1 ->]]; cbn [bind].
    + right. exists n. split; auto. exists pre, f, fs. rewrite <- app_assoc. auto.
    + apply IH. rewrite pick_snoc, Hn. cbn. apply (Permutation_NoDup (l := n :: pick singular pre)); [apply Permutation_cons_append|].
      now constructor.
  - rewrite S. cbn [bind]. apply IH. rewrite pick_snoc, Hn. cbn. now rewrite app_nil_r.
Qed.
Lemma decode_value_spec : forall E b enc, match decode_value E b enc with
  | Ok v => transfer_decoded enc b v
  | Err e => (exists w, e = Unknown w) /\ forall v, ~ transfer_decoded enc b v
  | Crash _ => False
  end.
Proof.
  intros E b enc. destruct enc; cbn [decode_value]; try constructor.
  - rewrite decode_qp_spec. constructor.
  - pose proof (decode_base64_spec E b) as D. destruct (b64_decoding b) as [v|] eqn:B.
    + rewrite D. now constructor.
    + destruct D as [w ->]. split; eauto. intros v H. inversion H. congruence.
  - eauto.
  - intros v H. inversion H.
Qed.
Lemma transfer_fun : forall enc b v v', transfer_decoded enc b v -> transfer_decoded enc b v' -> v = v'.
Proof. intros enc b v v' H H'. destruct H; inversion H'; subst; congruence. Qed.

Lemma sender_step : forall (b : bool) (s : option mailbox_t) (l : list mailbox_t),
  (exists r, (if b then match s with Some s => Ok (Some s) | None => match l with [m] => Ok (Some m) | _ => Err (MissingHeader "Sender") end end
              else Ok None) = Ok r /\ if b then r = sender_of s l /\ r <> None else r = None) \/
  ((if b then match s with Some s => Ok (Some s) | None => match l with [m] => Ok (Some m) | _ => Err (MissingHeader "Sender") end end
              else Ok None) = Err (MissingHeader "Sender") /\ b = true /\ s = None /\ forall m, l <> [m]).
Proof.
  intros [|] [m|] [|x [|y l]]; try (right; repeat split; auto; intros; discriminate);
    left; eexists; split; try reflexivity; split; try reflexivity; discriminate.
Qed.
Definition entity_of (fs : list field) (v : bytes) : raw_entity_t :=
  {| e_mime_type := fst (fst (type_of (only is_content_type fs)));
     e_subtype := snd (fst (type_of (only is_content_type fs)));
     e_description := only is_content_description fs;
     e_id := only is_content_id fs;
     e_parameters := snd (type_of (only is_content_type fs));
     e_disposition := only is_content_disposition fs;
     e_value := v; e_additional_headers := [] |}.
Definition mime_step (E : env) (a : acc) (b : option bytes) : res (option raw_entity_t) :=
    if f_mime E then
      let '(t, s, p) := match v_content_type a with Some x => x | None => default_content_type end in
      let* v :=
        match b with
        | Some b => let* d := decode_value E b (match v_cte a with Some e => e | None => SevenBit end) in Ok (Some d)
        | None => Ok None
        end in
      Ok (Some {| e_mime_type := t; e_subtype := s; e_description := v_content_description a;
                  e_id := v_content_id a; e_parameters := p; e_disposition := v_content_disposition a;
                  e_value := match v with Some v => v | None => [] end;
                  e_additional_headers := [] |})
    else Ok None.
Lemma mime_step_spec : forall E fs b,
  (exists r, mime_step E (acc_of fs) b = Ok r /\ if f_mime E then
     exists v, match b with Some b => transfer_decoded (encoding_of (only is_cte fs)) b v | None => v = [] end /\ r = Some (entity_of fs v)
     else r = None) \/
  (exists w t, mime_step E (acc_of fs) b = Err (Unknown w) /\ f_mime E = true /\ b = Some t /\
     forall v, ~ transfer_decoded (encoding_of (only is_cte fs)) t v).
Proof.
  intros E fs b. unfold mime_step. destruct (f_mime E); [|left; eauto].
  cbn [acc_of v_content_type v_cte v_content_description v_content_id v_content_disposition].
  change (match only is_content_type fs with Some x => x | None => default_content_type end) with (type_of (only is_content_type fs)).
  change (match only is_cte fs with Some e => e | None => SevenBit end) with (encoding_of (only is_cte fs)).
  unfold entity_of. destruct (type_of (only is_content_type fs)) as [[t s] p]. cbn [fst snd].
  destruct b as [b|]; cbn [bind].
  - pose proof (decode_value_spec E b (encoding_of (only is_cte fs))) as D.
    destruct (decode_value E b (encoding_of (only is_cte fs))) as [v|e|k]; cbn [bind]; [|destruct D as [[w ->] D]|contradiction].
    + left. eexists. split; [reflexivity|]. eauto.
    + right. exists w, b. auto.
  - left. eexists. split; [reflexivity|]. eauto.
Qed.
Theorem assemble_spec : forall E fs b,
  match (let* a := set_fields acc0 fs in finish E a b) with
  | Ok e => email_of E fs b e
  | Err e => email_error E fs b e
  | Crash _ => False
  end.
Proof.
  intros E fs b. destruct (set_fields_spec fs []) as [[Hu Hs]|(n & Hn & Hs)]; [constructor| |].
  2: { change acc0 with (acc_of []). rewrite Hs. cbn. now constructor. }
  change acc0 with (acc_of []). rewrite Hs. cbn [bind app] in *.
  unfold finish. change (v_from (acc_of fs)) with (only is_from fs). change (v_date (acc_of fs)) with (only is_date fs).
  change (v_sender (acc_of fs)) with (only is_sender fs).
  match goal with |- context [bind ?x ?k] => remember k as K1 eqn:HK1 end.
  assert (HF : (exists fr, (if f_from E then ok_or (only is_from fs) (MissingHeader "From") else Ok []) = Ok fr /\
                  (if f_from E then only is_from fs = Some fr else fr = []) /\ fr = (if f_from E then authors fs else []) /\ (f_from E = true -> pick is_from fs <> [])) \/
               ((if f_from E then ok_or (only is_from fs) (MissingHeader "From") else Ok []) = Err (MissingHeader "From") /\ f_from E = true /\ pick is_from fs = [])).
  { unfold authors. destruct (f_from E); [|left; eexists; repeat split; auto; discriminate]. destruct (only is_from fs) as [fr|] eqn:O.
    - left. eexists. repeat split; auto. intros _ X. apply only_none in X. congruence.
    - right. repeat split; auto. now apply only_none. }
  destruct HF as [(fr & -> & HF & HA & NF)|(-> & HF & HN)]; cbn [bind]; [|now apply error_from]. subst K1.
  match goal with |- context [bind ?x ?k] => remember k as K1 eqn:HK1 end.
  assert (HD : (exists da, (if f_date E then let* d := ok_or (only is_date fs) (MissingHeader "Date") in Ok (Some d) else Ok None) = Ok da /\
                  (if f_date E then only is_date fs = da /\ da <> None else da = None) /\ (f_date E = true -> pick is_date fs <> [])) \/
               ((if f_date E then let* d := ok_or (only is_date fs) (MissingHeader "Date") in Ok (Some d) else Ok None) = Err (MissingHeader "Date") /\ f_date E = true /\ pick is_date fs = [])).
  { destruct (f_date E); [|left; eexists; repeat split; auto; discriminate]. destruct (only is_date fs) as [da|] eqn:O; cbn.
    - left. eexists. repeat split; auto; [discriminate|]. intros _ X. apply only_none in X. congruence.
    - right. repeat split; auto. now apply only_none. }
  destruct HD as [(da & -> & HD & ND)|(-> & HD & HN)]; cbn [bind]; [|now apply error_date]. subst K1.
  match goal with |- context [bind ?x ?k] => remember k as K1 eqn:HK1 end.
  destruct (sender_step (f_sender E) (only is_sender fs) fr) as [(se & -> & HS)|(-> & HS & HN & HM)]; cbn [bind].
  2: { apply error_sender; auto; [now apply only_none|]. now rewrite <- HA. }
  subst K1.
  match goal with |- context [bind ?x ?k] => change x with (mime_step E (acc_of fs) b); remember k as K1 eqn:HK1 end.
  destruct (mime_step_spec E fs b) as [(me & -> & HM)|(w & t & -> & HM & -> & HT)]; cbn [bind].
  - subst K1. constructor; cbn; auto.
  - apply (error_encoding _ _ _ t); auto. intros HE. rewrite HE in HS. rewrite <- HA. destruct HS as [-> HS]. exact HS.
Qed.

(* ---- Email::parse ---- *)
Definition parse_outcome (E : env) (data : bytes) (x : res email) : Prop :=
  match x with
  | Ok e => exists fs b, message_text E data fs b /\ (f_mime E = false -> forall t, b = Some t -> body_text t) /\ email_of E fs b e
  | Err e => e = headers_error \/ (f_mime E = false /\ e = body_error) \/
             exists fs b, message_text E data fs b /\ (f_mime E = false -> forall t, b = Some t -> body_text t) /\ email_error E fs b e
  | Crash k => mime_overflow E k
  end.
Theorem sound_parse : forall E data, env_ok E -> parse_outcome E data (parse E data).
Proof.
  intros E data HE. unfold parse. pose proof (sound_message E data HE) as M.
  destruct (parse_message E data) as [[fs b]|e|k]; cbn [bind message_outcome] in *; [|destruct M; cbn; auto|exact M].
  destruct M as [M1 M2]. pose proof (assemble_spec E fs b) as A.
  destruct (let* a := set_fields acc0 fs in finish E a b) as [e|e|k]; cbn; [eauto 6| |contradiction]. right. right. eauto.
Qed.

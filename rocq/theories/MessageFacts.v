(* Corollaries of EmailProofs.v in the form used by the properties. *)
From Coq Require Import Permutation.
From Verif Require Import Base Utf8 Combinators Time Address Base64 QuotedPrintable MimeFields Fields Message Entity Email Envs Rfc5322 CodecSpec
  RfcFields EmailSpec MultipartSpec EntitySpec Post Base64Proofs QPProofs ParamProofs SoundFields SoundMessage EntityProofs EmailProofs.

Lemma body_accept : forall b v, body (CRLF ++ b) = Ok v <-> v = Some b /\ body_text b.
Proof.
  intros b v. destruct (body_spec b) as [[H ->]|[H ->]]; split; try (intros [? ?]; contradiction); try discriminate.
  - inversion 1; auto.
  - intros [-> _]. reflexivity.
Qed.
Lemma body_reject : forall b, ~ body_text b <->
  body (CRLF ++ b) = Err (Explicit "TAG ERROR: In a body, a line must end with a CRLF sequence.").
Proof. intros b. destruct (body_spec b) as [[H ->]|[H ->]]; split; auto; try contradiction. discriminate. Qed.
Lemma parse_body : forall E data e, env_ok E -> f_mime E = false -> parse E data = Ok e ->
  match body_of e with
  | Some b => body_text b /\ exists h, data = h ++ CRLF ++ b
  | None => exists fs, many_of (field_text E) data fs
  end.
Proof.
  intros E data e HE Hm H. pose proof (sound_parse E data HE) as S. rewrite H in S. destruct S as (fs & b & HM & HB & He).
  rewrite (of_body _ _ _ _ He), Hm. destruct HM as [c fs c' b Hc Hr]. destruct Hr as [|t].
  - rewrite app_nil_r. eauto.
  - split; [now apply HB|eauto].
Qed.

Lemma duplicate_iff : forall E data fs b n, env_ok E -> parse_message E data = Ok (fs, b) ->
  parse E data = Err (DuplicateHeader n) <-> first_repeat fs n.
Proof.
  intros E data fs b n HE HM. split.
  - intros H. pose proof (assemble_spec E fs b) as A. rewrite <- (parse_assemble _ _ _ _ HM), H in A. now inversion A.
  - intros H. destruct (parse_iff_error E data fs b (DuplicateHeader n) HE HM) as (err & He & [<-|(w & w' & X & _)]); [now constructor|auto|discriminate].
Qed.
Lemma repeat_rejected : forall E data fs b n, env_ok E -> parse_message E data = Ok (fs, b) ->
  (exists a f c g d, fs = a ++ f :: c ++ g :: d /\ singular f = Some n /\ singular g = Some n) -> exists m, parse E data = Err (DuplicateHeader m).
Proof.
  intros E data fs b n HE HM (a & f & c & g & d & -> & Hf & Hg).
  pose proof (assemble_spec E (a ++ f :: c ++ g :: d) b) as A. rewrite <- (parse_assemble _ _ _ _ HM) in A.
  assert (ND : ~ NoDup (pick singular (a ++ f :: c ++ g :: d))).
  { rewrite pick_app. unfold pick at 2. cbn [map concat]. rewrite Hf. cbn [opt_list app].
    change (concat (map (fun f => opt_list (singular f)) (c ++ g :: d))) with (pick singular (c ++ g :: d)).
    rewrite pick_app. unfold pick at 3. cbn [map concat]. rewrite Hg. cbn [opt_list app]. intros H.
    apply NoDup_remove_2 in H. apply H. apply in_or_app. right. apply in_or_app. right. now left. }
  destruct (parse E _) as [e|err|k] eqn:P; [| |contradiction].
  - exfalso. apply ND. exact (of_unique _ _ _ _ A).
  - destruct A; try contradiction. eauto.
Qed.

Lemma missing_from : forall E data fs b, env_ok E -> parse_message E data = Ok (fs, b) -> NoDup (pick singular fs) ->
  f_from E = true -> pick is_from fs = [] -> parse E data = Err (MissingHeader "From").
Proof.
  intros E data fs b HE HM Hu Hf Hp. destruct (parse_iff_error E data fs b (MissingHeader "From") HE HM) as (err & He & [<-|(w & w' & X & _)]);
    [now apply error_from|auto|discriminate].
Qed.
Lemma missing_date : forall E data fs b, env_ok E -> parse_message E data = Ok (fs, b) -> NoDup (pick singular fs) ->
  (f_from E = true -> pick is_from fs <> []) -> f_date E = true -> pick is_date fs = [] -> parse E data = Err (MissingHeader "Date").
Proof.
  intros E data fs b HE HM Hu Hf Hd Hp. destruct (parse_iff_error E data fs b (MissingHeader "Date") HE HM) as (err & He & [<-|(w & w' & X & _)]);
    [now apply error_date|auto|discriminate].
Qed.
Lemma missing_sender : forall E data fs b l, env_ok E -> parse_message E data = Ok (fs, b) -> NoDup (pick singular fs) ->
  f_sender E = true -> pick is_sender fs = [] -> pick is_from fs = [l] -> length l <> 1 -> (f_date E = true -> pick is_date fs <> []) ->
  parse E data = Err (MissingHeader "Sender").
Proof.
  intros E data fs b l HE HM Hu Hs Hp Hf Hl Hd. destruct (parse_iff_error E data fs b (MissingHeader "Sender") HE HM) as (err & He & [<-|(w & w' & X & _)]);
    [|auto|discriminate].
  apply error_sender; auto; [|congruence]. rewrite (ok_sender E HE Hs). unfold authors, only. rewrite Hf. cbn. intros m ->. now apply Hl.
Qed.
Lemma mandatory : forall E data fs b e, env_ok E -> parse_message E data = Ok (fs, b) -> parse E data = Ok e ->
  (f_from E = true -> pick is_from fs = [from e]) /\
  (f_date E = true -> exists d, date_of e = Some d /\ pick is_date fs = [d]) /\
  (f_sender E = true -> exists s, sender e = Some s /\ (pick is_sender fs = [s] \/ pick is_sender fs = [] /\ from e = [s])).
Proof.
  intros E data fs b e HE HM H. apply (parse_iff_email _ _ _ _ _ HE HM) in H. pose proof (of_unique _ _ _ _ H) as U.
  split; [|split]; intros Hf.
  - pose proof (of_from _ _ _ _ H) as X. rewrite Hf in X.
    rewrite (pick_unique _ is_from "From" fs U) by (intros [] a; cbn; congruence). now rewrite X.
  - pose proof (of_date _ _ _ _ H) as X. rewrite Hf in X. destruct X as [X Y]. destruct (date_of e) as [d|]; [|congruence]. exists d. split; auto.
    rewrite (pick_unique _ is_date "Date" fs U) by (intros [] a; cbn; congruence). now rewrite X.
  - pose proof (of_sender _ _ _ _ H) as X. rewrite Hf in X. destruct X as [X Y]. destruct (sender e) as [s|]; [|congruence]. exists s. split; auto.
    rewrite (pick_unique _ is_sender "Sender" fs U) by (intros [] a; cbn; congruence).
    destruct (only is_sender fs) as [m|]; cbn [sender_of opt_list] in *; [left; congruence|right].
    destruct (from e) as [|m [|]]; try congruence. split; auto. congruence.
Qed.

Lemma transfer_iff : forall E b enc v, decode_value E b enc = Ok v <-> transfer_decoded enc b v.
Proof.
  intros E b enc v. pose proof (decode_value_spec E b enc) as D. destruct (decode_value E b enc) as [w|e|k]; [| |contradiction].
  - split; [now inversion 1; subst|]. intros H. f_equal. eapply transfer_fun; eauto.
  - split; [discriminate|]. intros H. exfalso. eapply (proj2 D); eauto.
Qed.
Lemma transfer_refused : forall E b n, exists w, decode_value E b (UnknownEnc n) = Err (Unknown w).
Proof. intros. eexists. reflexivity. Qed.
Lemma transfer_base64_back : forall E data, wf_bytes data -> exists text, encode_base64 E data = Ok text /\ decode_value E text Base64Enc = Ok data.
Proof. exact base64_round_trip. Qed.
Lemma transfer_qp_back : forall E data, wf_bytes data -> exists text, encode_qp E data = Ok text /\ decode_value E text QuotedPrintableEnc = Ok data.
Proof. exact qp_round_trip. Qed.
Lemma parse_transfer : forall E data fs b e, env_ok E -> f_mime E = true -> parse_message E data = Ok (fs, Some b) -> parse E data = Ok e ->
  exists r, mime_entity e = Some r /\ transfer_decoded (encoding_of (only is_cte fs)) b (e_value r).
Proof.
  intros E data fs b e HE Hm HM H. apply (parse_iff_email _ _ _ _ _ HE HM) in H. pose proof (of_mime _ _ _ _ H) as X. rewrite Hm in X.
  destruct X as (v & Hv & ->). eexists. split; [reflexivity|]. exact Hv.
Qed.

Lemma message_defaults : forall E data fs b e, env_ok E -> f_mime E = true -> parse_message E data = Ok (fs, b) -> parse E data = Ok e ->
  exists r, mime_entity e = Some r /\
  ((forall t s p, ~ In (FContentType t s p) fs) ->
     e_mime_type r = CText /\ e_subtype r = bs "plain" /\ e_parameters r = [(bs "charset", bs "us-ascii")]) /\
  ((forall x, ~ In (FContentTransferEncoding x) fs) -> e_value r = match b with Some t => t | None => [] end).
Proof.
  intros E data fs b e HE Hm HM H. apply (parse_iff_email _ _ _ _ _ HE HM) in H. pose proof (of_mime _ _ _ _ H) as X. rewrite Hm in X.
  destruct X as (v & Hv & ->). eexists. split; [reflexivity|]. cbn. split.
  - intros N. replace (only is_content_type fs) with (@None (content_type_t * bytes * list (bytes * bytes))); [cbn; auto|].
    symmetry. apply only_none, pick_nil. intros f Hf. destruct f; auto. exfalso. eapply N; eauto.
  - intros N. replace (only is_cte fs) with (@None encoding_t) in Hv; [cbn in Hv; destruct b; [inversion Hv; auto|auto]|].
    symmetry. apply only_none, pick_nil. intros f Hf. destruct f; auto. exfalso. eapply N; eauto.
Qed.
Lemma last_some_none : forall A B (f : A -> option B) l, (forall x, In x l -> f x = None) -> last_some f l = None.
Proof.
  intros A B f l. induction l as [|x l IH]; intros H; [reflexivity|]. cbn. rewrite IH; [|intros y Hy; apply H; now right]. apply H. now left.
Qed.
Lemma part_defaults : forall E i r, env_ok E -> raw_entity E i = Ok r ->
  exists hs b, part_text E i hs b /\ part_of hs b r /\
  ((forall t s p, ~ In (HType t s p) hs) ->
     e_mime_type r = CText /\ e_subtype r = bs "plain" /\ e_parameters r = [(bs "charset", bs "us-ascii")]) /\
  ((forall x, ~ In (HEncoding x) hs) -> e_value r = b).
Proof.
  intros E i r HE H. pose proof (sound_raw_entity E i (ok_hash E HE)) as S. rewrite H in S. destruct S as (hs & b & Ht & Hp).
  exists hs, b. split; auto. split; auto. split; intros N.
  - pose proof (of_part_type _ _ _ Hp) as T. rewrite last_some_none in T; [cbn in T; inversion T; auto|].
    intros h Hh. destruct h; auto. exfalso. eapply N; eauto.
  - pose proof (of_part_value _ _ _ Hp) as T. rewrite last_some_none in T; [cbn in T; inversion T; auto|].
    intros h Hh. destruct h; auto. exfalso. eapply N; eauto.
Qed.

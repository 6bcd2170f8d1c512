(* Completeness, part 9: headers are recognised by their name, trace blocks, whole messages. *)
From Coq Require Import Lia ZifyBool ZifyNat ZifyN Permutation.
From Verif Require Import Base Utf8 CharSets Combinators Whitespace QuotedString Common Time Address Percent MimeFields Fields Message
  Rfc5322 Rfc2047 Post CodecSpec RfcFields SoundBase SoundTime TagNoCase ParamProofs SoundFields Steps Complete CompleteFields Forward ForwardText ForwardAddr
  ForwardList ForwardTime ForwardMime ForwardParams ForwardParts ForwardMimeFields ForwardTrace.
Local Open Scope N_scope.

(* ---- header names ---- *)
(* i does not start with the header of that name *)
Definition without (name : string) (i : bytes) : Prop := starts_nocase i (bs name ++ [58]) = false.
Lemma fold_nocolon : forall n m, same_nocase n m -> ~ In 58 m -> ~ In 58 n.
Proof.
  intros n m H Hm Hn. apply Hm. apply (in_map fold_case) in Hn. unfold same_nocase in H. rewrite H in Hn. apply in_map_iff in Hn as (x & Hx & Hi).
  change (fold_case 58) with 58 in Hx. apply fold_case_colon in Hx. now subst.
Qed.
Lemma colon_unique : forall a b (c d : bytes), ~ In 58 a -> ~ In 58 b -> a ++ 58 :: c = b ++ 58 :: d -> a = b /\ c = d.
Proof.
  induction a as [|x a IH]; intros [|y b] c d Ha Hb H; cbn in H; inversion H; subst; auto; try (exfalso; cbn in *; tauto).
  destruct (IH b c d) as [-> ->]; auto; cbn in *; tauto.
Qed.
Lemma named_without : forall (name : string) n r, ~ In 58 n -> ~ In 58 (bs name) -> ~ same_nocase n (bs name) -> without name (n ++ [58] ++ r).
Proof.
  intros name n r Hn Hc Hs. unfold without. destruct (starts_nocase _ _) eqn:S; auto. exfalso. apply starts_nocase_spec in S as (m & t & E & H).
  apply name_colon in H as (k & -> & Hk). rewrite <- app_assoc in E. cbn [app] in E. apply colon_unique in E as [-> _]; auto. eapply fold_nocolon; eauto.
Qed.
Lemma nocase_differs : forall n (a b : string), same_nocase n (bs a) -> bytes_eqb (map fold_case (bs a)) (map fold_case (bs b)) = false -> ~ same_nocase n (bs b).
Proof.
  intros n a b H D H2. unfold same_nocase in *. assert (X : map fold_case (bs a) = map fold_case (bs b)) by congruence. rewrite X in D.
  assert (R : forall l, bytes_eqb l l = true) by (induction l; cbn; auto; now rewrite N.eqb_refl). now rewrite R in D.
Qed.
Ltac no_colon := let H := fresh in intros H; vm_compute in H; repeat (destruct H as [H|H]; [discriminate|]); exact H.
Lemma header_other : forall (a b : string) n r, same_nocase n (bs a) -> ~ In 58 (bs a) -> ~ In 58 (bs b) ->
  bytes_eqb (map fold_case (bs a)) (map fold_case (bs b)) = false -> without b (n ++ [58] ++ r).
Proof. intros a b n r H Ha Hb D. apply named_without; auto; [eapply fold_nocolon; eauto|eapply nocase_differs; eauto]. Qed.

(* ---- one header ---- *)
Lemma header_forward : forall A E e1 e2 m (value : parser A) m2 (name : string) (V : bytes -> A -> Prop) c v i,
  nocase_pair (bs e1) (bs e2) = true -> bs e1 = bs name ++ [58] -> rfc_header name V c v ->
  (forall c v, V c v -> value (c ++ CRLF ++ i) = Ok (CRLF ++ i, v)) -> header E e1 e2 m value m2 (c ++ i) = Ok (i, v).
Proof.
  intros A E e1 e2 m value m2 name V c v i H1 H2 [n c' v' Hn Hv] Hp. unfold header. rewrite <- !app_assoc. rewrite (name_tag E name) by auto. cbn [bind].
  rewrite (Hp c' v' Hv). cbn [bind]. rewrite tag_app. reflexivity.
Qed.
Lemma tag_without : forall E e1 e2 m (name : string) i, nocase_pair e1 e2 = true -> e1 = bs name ++ [58] -> without name i -> exists e, tag_no_case E e1 e2 m i = Err e.
Proof. intros E e1 e2 m name i Hp -> H. apply tag_no_case_err; auto. Qed.
Lemma header_without : forall A E e1 e2 m (value : parser A) m2 (name : string) i, nocase_pair (bs e1) (bs e2) = true -> bs e1 = bs name ++ [58] -> without name i ->
  exists e, header E e1 e2 m value m2 i = Err e.
Proof. intros A E e1 e2 m value m2 name i H1 H2 H. unfold header. destruct (tag_without E (bs e1) (bs e2) m name i) as [e ->]; auto. cbn. eauto. Qed.
Lemma resent_forward : forall A E m e1 e2 m1 (value : parser A) m2 (name : string) (V : bytes -> A -> Prop) c v i,
  nocase_pair (bs e1) (bs e2) = true -> bs e1 = bs name ++ [58] -> rfc_header ("Resent-" ++ name) V c v ->
  (forall c v, V c v -> value (c ++ CRLF ++ i) = Ok (CRLF ++ i, v)) -> resent E m (header E e1 e2 m1 value m2) (c ++ i) = Ok (i, v).
Proof.
  intros A E m e1 e2 m1 value m2 name V c v i H1 H2 [n c' v' Hn Hv] Hp. unfold resent.
  assert (X : bs ("Resent-" ++ name) = bs "Resent-" ++ bs name) by reflexivity. rewrite X in Hn.
  unfold same_nocase in Hn. rewrite map_app in Hn. apply map_eq_app in Hn as (a & b & -> & Ha & Hb).
  rewrite <- !app_assoc. rewrite (tag_no_case_ok E (bs "Resent-") (bs "rESENT-") m a) by (auto; reflexivity). cbn [bind].
  replace (b ++ [58] ++ c' ++ CRLF ++ i) with ((b ++ [58] ++ c' ++ CRLF) ++ i) by (now rewrite <- !app_assoc).
  eapply header_forward; eauto. now constructor.
Qed.
Lemma resent_without : forall A E m e1 e2 m1 (value : parser A) m2 (name : string) i, nocase_pair (bs e1) (bs e2) = true -> bs e1 = bs name ++ [58] -> without ("Resent-" ++ name) i ->
  exists e, resent E m (header E e1 e2 m1 value m2) i = Err e.
Proof.
  intros A E m e1 e2 m1 value m2 name i H1 H2 H. unfold resent. destruct (starts_nocase i (bs "Resent-")) eqn:S.
  - apply starts_nocase_spec in S as (a & r & -> & Ha). rewrite (tag_no_case_ok E (bs "Resent-") (bs "rESENT-") m a) by (auto; reflexivity). cbn [bind].
    eapply header_without; eauto. unfold without in *. destruct (starts_nocase r (bs name ++ [58])) eqn:R; auto. apply starts_nocase_spec in R as (b & t & -> & Hb).
    rewrite app_assoc in H. rewrite starts_nocase_app in H; auto. unfold same_nocase in *. change (bs ("Resent-" ++ name)) with (bs "Resent-" ++ bs name).
    transitivity (map fold_case a ++ map fold_case b); [apply map_app|]. rewrite Ha, Hb, <- map_app. reflexivity.
  - destruct (tag_no_case_err E (bs "Resent-") (bs "rESENT-") m i) as [e ->]; auto. cbn. eauto.
Qed.

(* ---- choice ---- *)
Lemma cfg_skip : forall A b (p : parser A) l i, (b = true -> exists e, p i = Err e) -> match_parsers (cfg b p ++ l) i = match_parsers l i.
Proof. intros A [] p l i H; [|reflexivity]. destruct (H eq_refl) as [e He]. cbn [cfg app match_parsers]. now rewrite He. Qed.
Lemma cfg_hit : forall A b (p : parser A) l i x, b = true -> p i = Ok x -> match_parsers (cfg b p ++ l) i = Ok x.
Proof. intros A b p l i x -> H. cbn [cfg app match_parsers]. now rewrite H. Qed.
Lemma parsers_skip : forall A (p : parser A) l i, (exists e, p i = Err e) -> match_parsers (p :: l) i = match_parsers l i.
Proof. intros A p l i [e He]. cbn [match_parsers]. now rewrite He. Qed.
Lemma parsers_hit : forall A (p : parser A) l i x, p i = Ok x -> match_parsers (p :: l) i = Ok x.
Proof. intros A p l i x H. cbn [match_parsers]. now rewrite H. Qed.
Lemma pmap_ok : forall A B (f : A -> B) (p : parser A) i r a, p i = Ok (r, a) -> pmap f p i = Ok (r, f a).
Proof. intros A B f p i r a H. unfold pmap. now rewrite H. Qed.
Lemma pmap_err : forall A B (f : A -> B) (p : parser A) i, (exists e, p i = Err e) -> exists e, pmap f p i = Err e.
Proof. intros A B f p i [e H]. unfold pmap. rewrite H. cbn. eauto. Qed.

(* ---- nothing of the kind ---- *)
Ltac mime_none name := let H := fresh in intros ? ? H; match goal with |- exists e, ?p ?E ?i = Err e => unfold p end;
  match goal with |- exists e, (let* _ := tag_no_case ?E ?e1 ?e2 ?m ?i in _) = _ => let X := fresh in destruct (tag_without E e1 e2 m name i eq_refl eq_refl H) as [? X]; rewrite X end; cbn [bind]; eauto.
Lemma mime_version_none : forall E i, without "MIME-Version" i -> exists e, mime_version E i = Err e. Proof. mime_none "MIME-Version"%string. Qed.
Lemma content_type_none : forall E i, without "Content-Type" i -> exists e, content_type E i = Err e. Proof. mime_none "Content-Type"%string. Qed.
Lemma encoding_none : forall E i, without "Content-Transfer-Encoding" i -> exists e, content_transfer_encoding E i = Err e. Proof. mime_none "Content-Transfer-Encoding"%string. Qed.
Lemma content_id_none : forall E i, without "Content-ID" i -> exists e, content_id E i = Err e. Proof. mime_none "Content-ID"%string. Qed.
Lemma content_description_none : forall E i, without "Content-Description" i -> exists e, content_description E i = Err e. Proof. mime_none "Content-Description"%string. Qed.
Lemma content_disposition_none : forall E i, without "Content-Disposition" i -> exists e, content_disposition E i = Err e. Proof. mime_none "Content-Disposition"%string. Qed.
Lemma date_none : forall E i, without "Date" i -> exists e, field_date E i = Err e. Proof. intros. now apply header_without with (name := "Date"%string). Qed.
Lemma from_none : forall E i, without "From" i -> exists e, field_from E i = Err e. Proof. intros. now apply header_without with (name := "From"%string). Qed.
Lemma sender_none : forall E i, without "Sender" i -> exists e, field_sender E i = Err e. Proof. intros. now apply header_without with (name := "Sender"%string). Qed.
Lemma reply_to_none : forall E i, without "Reply-To" i -> exists e, field_reply_to E i = Err e. Proof. intros. now apply header_without with (name := "Reply-To"%string). Qed.
Lemma to_none : forall E i, without "To" i -> exists e, field_to E i = Err e. Proof. intros. now apply header_without with (name := "To"%string). Qed.
Lemma cc_none : forall E i, without "Cc" i -> exists e, field_cc E i = Err e. Proof. intros. now apply header_without with (name := "Cc"%string). Qed.
Lemma bcc_none : forall E i, without "Bcc" i -> exists e, field_bcc E i = Err e. Proof. intros. now apply header_without with (name := "Bcc"%string). Qed.
Lemma message_id_none : forall E i, without "Message-ID" i -> exists e, field_message_id E i = Err e. Proof. intros. now apply header_without with (name := "Message-ID"%string). Qed.
Lemma in_reply_to_none : forall E i, without "In-Reply-To" i -> exists e, field_in_reply_to E i = Err e. Proof. intros. now apply header_without with (name := "In-Reply-To"%string). Qed.
Lemma references_none : forall E i, without "References" i -> exists e, field_references E i = Err e. Proof. intros. now apply header_without with (name := "References"%string). Qed.
Lemma subject_none : forall E i, without "Subject" i -> exists e, field_subject E i = Err e. Proof. intros. now apply header_without with (name := "Subject"%string). Qed.
Lemma comments_none : forall E i, without "Comments" i -> exists e, field_comments E i = Err e. Proof. intros. now apply header_without with (name := "Comments"%string). Qed.
Lemma keywords_none : forall E i, without "Keywords" i -> exists e, field_keywords E i = Err e. Proof. intros. now apply header_without with (name := "Keywords"%string). Qed.
Lemma return_path_none : forall E i, without "Return-Path" i -> exists e, return_path E i = Err e. Proof. intros. now apply header_without with (name := "Return-Path"%string). Qed.
Lemma received_none : forall E i, without "Received" i -> exists e, received E i = Err e. Proof. intros. now apply header_without with (name := "Received"%string). Qed.
Lemma unknown_none : forall E i, ends is_ftext i -> exists e, unknown E i = Err e.
Proof. intros E i H. unfold unknown. destruct (take_while1_err is_ftext i H) as [e ->]. cbn. eauto. Qed.
Ltac field_none := lazymatch goal with
  | |- exists e, field_date _ _ = _ => apply date_none
  | |- exists e, field_from _ _ = _ => apply from_none
  | |- exists e, field_sender _ _ = _ => apply sender_none
  | |- exists e, field_reply_to _ _ = _ => apply reply_to_none
  | |- exists e, field_to _ _ = _ => apply to_none
  | |- exists e, field_cc _ _ = _ => apply cc_none
  | |- exists e, field_bcc _ _ = _ => apply bcc_none
  | |- exists e, field_message_id _ _ = _ => apply message_id_none
  | |- exists e, field_in_reply_to _ _ = _ => apply in_reply_to_none
  | |- exists e, field_references _ _ = _ => apply references_none
  | |- exists e, field_subject _ _ = _ => apply subject_none
  | |- exists e, field_comments _ _ = _ => apply comments_none
  | |- exists e, field_keywords _ _ = _ => apply keywords_none
  | |- exists e, mime_version _ _ = _ => apply mime_version_none
  | |- exists e, content_type _ _ = _ => apply content_type_none
  | |- exists e, content_transfer_encoding _ _ = _ => apply encoding_none
  | |- exists e, content_id _ _ = _ => apply content_id_none
  | |- exists e, content_description _ _ = _ => apply content_description_none
  | |- exists e, content_disposition _ _ = _ => apply content_disposition_none
  end.
(* the text starts with none of the headers that the build interprets *)
Definition unnamed (E : env) (i : bytes) : Prop := forall name, In name (known_names E) -> without name i.
Lemma in_when : forall b x l, b = true -> In x l -> In x (when b l). Proof. now intros b x l ->. Qed.
Ltac in_list := solve [repeat (first [left; reflexivity|right])].
Ltac in_names H := lazymatch goal with
  | |- In _ (_ ++ _) => apply in_or_app; first [left; solve [apply in_when; [exact H|in_list]]|right; in_names H]
  | _ => apply in_when; [exact H|in_list] end.
Ltac in_known H := unfold known_names; in_names H.
Lemma unnamed_skip : forall E i, unnamed E i -> any_field E i = match_parsers [pmap (fun '(n, v) => FUnknown n v) (unknown E)] i.
Proof.
  intros E i H. unfold any_field, field_parsers.
  repeat (rewrite cfg_skip by (let F := fresh in intros F; apply pmap_err; field_none; apply H; in_known F)). reflexivity.
Qed.
(* no header at all: the end of the header part *)
Definition bare (i : bytes) : Prop := i = [] \/ exists b, i = CRLF ++ b.
Lemma bare_without : forall name i, bare i -> match name with EmptyString => False | String a _ => fold_case (Ascii.N_of_ascii a) <> 13 end -> without name i.
Proof.
  intros [|a s] i Hi Ha; [contradiction|]. unfold without. destruct (starts_nocase _ _) eqn:S; auto. exfalso. apply starts_nocase_spec in S as (n & r & E & H).
  destruct n as [|x n]; [discriminate|]. unfold same_nocase in H. cbn in H. injection H as H1 _. destruct Hi as [->|[b ->]]; [discriminate|]. injection E as E1 _. subst x. now apply Ha.
Qed.
Lemma known_start : forall E name, In name (known_names E) -> match name with EmptyString => False | String a _ => fold_case (Ascii.N_of_ascii a) <> 13 end.
Proof.
  intros E name H. unfold known_names, when in H. repeat (apply in_app_or in H as [H|H]);
    match type of H with In _ (if ?b then _ else _) => destruct b; [|destruct H] end; repeat (destruct H as [<-|H]; [cbn; discriminate|]); destruct H.
Qed.
Lemma any_field_bare : forall E i, bare i -> exists e, any_field E i = Err e.
Proof.
  intros E i H. rewrite unnamed_skip; [|intros name Hn; apply bare_without; auto; eapply known_start; eauto]. rewrite parsers_skip; [cbn; eauto|].
  apply pmap_err, unknown_none. destruct H as [->|[b ->]]; [exact I|reflexivity].
Qed.

(* ---- a header outside of the trace blocks ---- *)
Lemma text_value_forward : forall (m : bool) E c v i, clear_text_value m (textcode E) c v -> ends is_wsp i -> (if m then mime_unstructured E else unstructured) (c ++ CRLF ++ i) = Ok (CRLF ++ i, v).
Proof. intros [] E c v i H Hi; [now apply mime_unstructured_forward|now apply unstructured_forward]. Qed.
Lemma header_apart : forall A (a b : string) (V : bytes -> A -> Prop) c v i, rfc_header a V c v -> ~ In 58 (bs a) -> ~ In 58 (bs b) ->
  bytes_eqb (map fold_case (bs a)) (map fold_case (bs b)) = false -> without b (c ++ i).
Proof. intros A a b V c v i [n c' v' Hn Hv] Ha Hb D. rewrite <- !app_assoc. eapply header_other; eauto. Qed.
Ltac other H := eapply header_apart; [exact H|no_colon|no_colon|reflexivity].
Ltac skip_others H := repeat (rewrite cfg_skip by (intros _; apply pmap_err; field_none; other H)).
Ltac hit H nm := eexists; (split; [|apply same_refl]); unfold any_field, field_parsers; skip_others H; apply cfg_hit; [assumption|]; apply pmap_ok; eapply header_forward with (name := nm); [reflexivity|reflexivity|exact H|].
Lemma any_field_forward : forall E c f i, (forall x, Permutation (hash_order E x) x) -> clear_field E c f -> ends is_wsp i ->
  exists f', any_field E (c ++ i) = Ok (i, f') /\ same_field f f'.
Proof.
  intros E c f i HE H Hi. destruct H as [c v Hf H|c v Hf H|c v Hf H|c v Hf H|c v Hf H|c v Hf H|c v Hf H|c v Hf H|c v Hf H|c v Hf H|c v Hf H|c v Hf H|c v Hf H
     |c x y Hf H|c t s p Hf H|c v Hf H|c v Hf H|c v Hf H|c v Hf H|c n v H].
  - hit H "Date"%string. intros c' v' [Hv Ht]. apply date_time_forward; auto. now apply tidy_follows.
  - hit H "From"%string. intros c' v' [Hv Ht]. apply mailbox_list_forward; auto; [now apply tidy_follows|split; reflexivity|reflexivity].
  - hit H "Sender"%string. intros c' v' [Hv Ht]. apply mailbox_forward; auto; [now apply tidy_follows|split; reflexivity].
  - hit H "Reply-To"%string. intros c' v' [Hv Ht]. apply address_list_forward; auto; [now apply tidy_follows|split; reflexivity|reflexivity].
  - hit H "To"%string. intros c' v' [Hv Ht]. apply address_list_forward; auto; [now apply tidy_follows|split; reflexivity|reflexivity].
  - hit H "Cc"%string. intros c' v' [Hv Ht]. apply address_list_forward; auto; [now apply tidy_follows|split; reflexivity|reflexivity].
  - hit H "Bcc"%string. intros c' v' [Hv Ht]. apply bcc_forward; [now split|now apply tidy_follows].
  - hit H "Message-ID"%string. intros c' v' [Hv Ht]. apply message_id_forward; auto. now apply tidy_follows.
  - hit H "In-Reply-To"%string. intros c' v' [Hv Ht]. apply message_ids_forward; auto; [now apply tidy_follows|reflexivity].
  - hit H "References"%string. intros c' v' [Hv Ht]. apply message_ids_forward; auto; [now apply tidy_follows|reflexivity].
  - hit H "Subject"%string. intros c' v' Hv. unfold text_value. now apply text_value_forward.
  - hit H "Comments"%string. intros c' v' Hv. unfold text_value. now apply text_value_forward.
  - hit H "Keywords"%string. intros c' v' [Hv Ht]. apply keywords_forward; auto. now apply tidy_follows.
  - eexists. split; [|constructor]. unfold any_field, field_parsers. skip_others H. apply cfg_hit; [assumption|]. apply (pmap_ok _ _ (fun '(a, b) => FMimeVersion a b) (mime_version E) _ i (x, y)). now apply mime_version_forward.
  - destruct (content_type_forward E c t s p i HE Hi H) as (l' & Hl & Hg). exists (FContentType t s l'). split; [|now constructor]. unfold any_field, field_parsers. skip_others H. apply cfg_hit; [assumption|].
    apply (pmap_ok _ _ (fun '(t, s, p) => FContentType t s p) (content_type E) _ i (t, s, l')). exact Hl.
  - eexists. split; [|constructor]. unfold any_field, field_parsers. skip_others H. apply cfg_hit; [assumption|]. apply pmap_ok. now apply encoding_forward.
  - eexists. split; [|constructor]. unfold any_field, field_parsers. skip_others H. apply cfg_hit; [assumption|]. apply pmap_ok. now apply content_id_forward.
  - eexists. split; [|constructor]. unfold any_field, field_parsers. skip_others H. apply cfg_hit; [assumption|]. apply pmap_ok. now apply content_description_forward.
  - destruct (content_disposition_forward E c v i HE Hi H) as (d' & Hd & Hg). exists (FContentDisposition d'). split; [|exact Hg]. unfold any_field, field_parsers. skip_others H. apply cfg_hit; [assumption|].
    apply pmap_ok. exact Hd.
  - inversion H as [n0 c0 v0 Hn Hu Hv]; subst. exists (FUnknown n v). split; [|constructor]. rewrite <- !app_assoc. rewrite unnamed_skip.
    + apply parsers_hit. apply (pmap_ok _ _ (fun '(n, v) => FUnknown n v) (unknown E) _ i (n, v)). unfold unknown. rewrite (take_while1_app is_ftext rfc_ftext n ([58] ++ c0 ++ CRLF ++ i) ftext_spec ftext_ascii Hn) by reflexivity.
      cbn [bind]. change (bs ":") with [58]. rewrite tag_app. cbn [bind]. rewrite (text_value_forward _ E c0 v i Hv Hi). cbn [bind]. rewrite tag_app. reflexivity.
    + intros name Hin. apply named_without; auto.
      * intros X. destruct Hn as [_ Hn]. unfold chars in Hn. rewrite Forall_forall in Hn. apply Hn in X. apply ftext_spec in X. discriminate.
      * unfold known_names, when in Hin. repeat (apply in_app_or in Hin as [Hin|Hin]);
          match type of Hin with In _ (if ?b then _ else _) => destruct b; [|destruct Hin] end; repeat (destruct Hin as [<-|Hin]; [no_colon|]); destruct Hin.
Qed.

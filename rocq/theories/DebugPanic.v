(* Proof of C55, second part: the texts that can make a debug build panic. *)
From Coq Require Import Permutation Lia ZifyBool ZifyNat ZifyN.
From Verif Require Import Base Utf8 CharSets Combinators Whitespace QuotedString Common Time Address Charset Percent MimeFields Fields Message Entity Email Envs
  Rfc5322 RfcFields EmailSpec EntitySpec MultipartSpec Post TagNoCase PercentProofs SoundBase SoundTime SoundAddr ParamProofs SoundFields SoundMessage MultipartProofs EntityProofs SafetyProofs DebugSpec.
Local Open Scope N_scope.

Lemma bind_crash : forall T U (x : res T) (f : T -> res U) k, bind x f = Crash k -> x = Crash k \/ exists a, x = Ok a /\ f a = Crash k.
Proof. intros T U [a|e|c] f k H; cbn in H; try discriminate; [right; eauto|left; congruence]. Qed.

(* ---- parameters ---- *)
Lemma next_segments_full : forall E cs n values idx value k, (length values < n)%nat -> NoDup (map fst values) -> Forall seg_ok values -> idx < 256 -> idx <> 0 ->
  (forall j, j < idx -> iget values j = None) ->
  next_segments E n values cs idx value = Crash k -> forall j, idx <= j < 256 -> iget values j <> None.
Proof.
  intros E cs n. induction n as [|n IH]; intros values idx value k Hn Hd Hok Hi Hi0 Hv H j Hj; [lia|]. cbn [next_segments] in H.
  pose proof (imap_remove_spec values idx Hd) as R. destruct (imap_remove values idx) as [[[e nv] values']|]; [|discriminate].
  destruct R as (R1 & R2 & R3 & R4 & R5). pose proof (iget_ok _ _ _ Hok R1) as [_ Ha]. cbn in Ha.
  apply bind_crash in H as [H|(v & _ & H)].
  { exfalso. destruct e, cs as [c|]; try discriminate. apply bind_crash in H as [H|(? & _ & ?)]; [|discriminate].
    pose proof (decode_parameter_sound E never nv c Ha) as S. now rewrite H in S. }
  destruct (N.eq_dec j idx) as [->|Hne]; [congruence|]. unfold u8_add in H. destruct (N.ltb_spec (idx + 1) 256) as [Hlt|Hge]; [|lia]. cbn [bind] in H.
  specialize (IH values' (idx + 1) v k). assert (G : iget values' j <> None).
  { apply IH; auto; try lia; [eapply Forall_incl; eauto|]. intros j' Hj'. rewrite R4. destruct (N.eqb_spec j' idx); auto. apply Hv. lia. }
  rewrite R4 in G. destruct (N.eqb_spec j idx); congruence.
Qed.
Lemma join_segments_full : forall E values k, NoDup (map fst values) -> Forall seg_ok values -> join_segments E values = Crash k -> forall j, j < 256 -> iget values j <> None.
Proof.
  intros E values k Hd Hok H j Hj. unfold join_segments in H. pose proof (imap_remove_spec values 0 Hd) as R.
  destruct (imap_remove values 0) as [[[e v] values']|]; [|discriminate]. destruct R as (R1 & R2 & R3 & R4 & R5).
  pose proof (iget_ok _ _ _ Hok R1) as [_ Ha]. cbn in Ha. destruct (N.eq_dec j 0) as [->|Hne]; [congruence|].
  apply bind_crash in H as [H|([v' cs] & _ & H)]; [exfalso; pose proof (first_segment_sound E never e v Ha) as S; now rewrite H in S|].
  apply bind_crash in H as [H|(? & _ & ?)]; [|discriminate].
  assert (G : iget values' j <> None).
  { eapply (next_segments_full E cs _ values' 1 v' k); eauto; try lia; [eapply Forall_incl; eauto|]. intros j' Hj'. rewrite R4. destruct (N.eqb_spec j' 0); auto. lia. }
  rewrite R4 in G. destruct (N.eqb_spec j 0); congruence.
Qed.
Lemma join_all_full : forall E complex names ps k, complex_ok complex -> join_all E names complex ps = Crash k ->
  exists n, forall j, j < 256 -> iget (default_map (map_get complex n)) j <> None.
Proof.
  intros E complex names. induction names as [|n names IH]; intros ps k Hc H; cbn [join_all] in H; [discriminate|].
  destruct (map_get complex n) as [values|] eqn:G; [|eauto]. apply bind_crash in H as [H|(o & _ & H)]; [|eauto].
  exists n. rewrite G. cbn [default_map]. destruct (proj2 Hc _ _ G). eapply join_segments_full; eauto.
Qed.
Lemma collect_full : forall E raw k, Forall param_ok raw -> collect_parameters E raw = Crash k -> all_indexes raw.
Proof.
  intros E raw k Hl H. unfold collect_parameters in H.
  pose proof (split_spec raw raw [] [] [] eq_refl Hl) as S. destruct (split_parameters raw [] []) as [plain complex].
  destruct S as (S1 & S2 & S3); try (intros; reflexivity). { split; [constructor|]. intros n m X. discriminate. }
  apply join_all_full in H as [n H]; auto. exists n. intros j Hj. rewrite <- S3. auto.
Qed.
Lemma collect_post : forall E (K : crash -> Prop) raw, Forall param_ok raw -> (forall k, all_indexes raw -> K k) -> ppost K (collect_parameters E raw) (fun _ => True).
Proof. intros E K raw H HK. destruct (collect_parameters E raw) as [?|?|k] eqn:X; cbn; auto. apply HK. eapply collect_full; eauto. Qed.

(* ---- the two headers ---- *)
Lemma content_type_full : forall E i, post (fun _ => full_header i) (content_type E i) i (fun _ _ => True).
Proof.
  intros E i. set (K := fun _ : crash => full_header i). unfold content_type.
  step (fun x => post_tag_no_case E K (bs "Content-Type:") (bs "cONTENT-tYPE:") x i eq_refl).
  step (sound_ocfws K). step (sound_mime_type E K).
  eapply post_bind; [apply post_tag|]. intros c2 r2 [] Hi2 ->. cbn beta iota. step (sound_token K). destruct H2 as [-> H2]. cbv zeta. step (sound_params K).
  eapply post_bind_p; [apply collect_post; [eapply many_param_ok; eauto|]|].
  { intros k Hf. unfold K. subst. eapply full_type; eauto. }
  intros l _. step (sound_inline_cfws K). stepcrlf. apply post_ok. exact I.
Qed.
Lemma content_disposition_full : forall E i, post (fun _ => full_header i) (content_disposition E i) i (fun _ _ => True).
Proof.
  intros E i. set (K := fun _ : crash => full_header i). unfold content_disposition.
  step (fun x => post_tag_no_case E K (bs "Content-Disposition:") (bs "cONTENT-dISPOSITION:") x i eq_refl).
  step (sound_ocfws K). step (sound_disposition_kind E K).
  eapply post_bind.
  { apply (post_many _ K (disposition_item_parser E) rfc_disposition_item); [intros; eapply item_nonempty; eauto|]. intros. apply sound_disposition_item. }
  intros ci ri items Hii Hitems. cbn beta iota.
  eapply post_bind_p; [apply collect_post; [rewrite item_params_of; eapply items_params_ok; eauto|]|].
  { intros k Hf. rewrite item_params_of in Hf. unfold K. subst. eapply full_disposition; eauto. }
  intros l _. step (sound_inline_cfws K). stepcrlf. apply post_ok. exact I.
Qed.
Lemma content_type_crash : forall E i k, content_type E i = Crash k -> full_header i.
Proof. intros E i k H. pose proof (content_type_full E i) as S. now rewrite H in S. Qed.
Lemma content_disposition_crash : forall E i k, content_disposition E i = Crash k -> full_header i.
Proof. intros E i k H. pose proof (content_disposition_full E i) as S. now rewrite H in S. Qed.

(* ---- all headers ---- *)
Lemma any_field_full : forall E i, post (fun _ => full_header i) (any_field E i) i (fun _ _ => True).
Proof.
  intros E i. set (K := fun _ : crash => full_header i). unfold any_field. apply post_Forall_match. unfold field_parsers.
  repeat (apply Forall_cfg; [intros HE; apply post_pmap|]).
  all: try (apply Forall_cons; [|apply Forall_nil]; apply post_pmap).
  all: try (eapply post_weaken; [|intros; exact I]).
  - apply (sound_header _ _ _ _ _ "Date"); [reflexivity|reflexivity|apply (sound_date_value E K)].
  - apply (sound_header _ _ _ _ _ "From"); [reflexivity|reflexivity|apply (sound_mailbox_list E K)].
  - apply (sound_header _ _ _ _ _ "Sender"); [reflexivity|reflexivity|apply (sound_mailbox E K)].
  - apply (sound_header _ _ _ _ _ "Reply-To"); [reflexivity|reflexivity|apply (sound_address_list E K)].
  - apply (sound_header _ _ _ _ _ "To"); [reflexivity|reflexivity|apply (sound_address_list E K)].
  - apply (sound_header _ _ _ _ _ "Cc"); [reflexivity|reflexivity|apply (sound_address_list E K)].
  - apply (sound_header _ _ _ _ _ "Bcc"); [reflexivity|reflexivity|apply (sound_bcc_value E K)].
  - apply (sound_header _ _ _ _ _ "Message-ID"); [reflexivity|reflexivity|apply (sound_message_id E K)].
  - apply (sound_header _ _ _ _ _ "In-Reply-To"); [reflexivity|reflexivity|apply (sound_msg_ids E K)].
  - apply (sound_header _ _ _ _ _ "References"); [reflexivity|reflexivity|apply (sound_msg_ids E K)].
  - apply (sound_header _ _ _ _ _ "Subject"); [reflexivity|reflexivity|apply (sound_text_value E K)].
  - apply (sound_header _ _ _ _ _ "Comments"); [reflexivity|reflexivity|apply (sound_text_value E K)].
  - apply (sound_mime_version E K).
  - apply content_type_full.
  - apply (sound_encoding E K).
  - apply (sound_content_id E K).
  - apply (sound_content_description E K).
  - apply content_disposition_full.
  - apply (sound_header _ _ _ _ _ "Keywords"); [reflexivity|reflexivity|apply (sound_keywords_value E K)].
  - apply (sound_unknown E K).
Qed.
Lemma any_field_crash : forall E i k, any_field E i = Crash k -> full_header i.
Proof. intros E i k H. pose proof (any_field_full E i) as S. now rewrite H in S. Qed.
Lemma entity_header_full : forall E i, post (fun _ => full_header i) (entity_header_parser E i) i (fun _ _ => True).
Proof.
  intros E i. unfold entity_header_parser. apply post_Forall_match. repeat (apply Forall_cons || apply Forall_nil); apply post_pmap; (eapply post_weaken; [|intros; exact I]).
  - apply sound_encoding.
  - apply content_type_full.
  - apply sound_content_id.
  - apply sound_content_description.
  - apply content_disposition_full.
  - apply sound_unknown.
Qed.
Lemma entity_header_crash : forall E i k, entity_header_parser E i = Crash k -> full_header i.
Proof. intros E i k H. pose proof (entity_header_full E i) as S. now rewrite H in S. Qed.

Lemma many_crash : forall A (p : parser A) K (P : bytes -> A -> Prop) i k, (forall c a, P c a -> c <> []) -> (forall j, post K (p j) j P) -> many p i = Crash k -> exists c r, i = c ++ r /\ p r = Crash k.
Proof.
  intros A p K P i k HP Hp. unfold many. assert (L : (length i < S (length i))%nat) by lia. revert L. generalize (S (length i)) as n. intros n. revert i.
  induction n as [|n IH]; intros i L H; [lia|]. cbn [many_fuel] in H. pose proof (Hp i) as S. destruct (p i) as [[r a]|e|c] eqn:X; cbn [attempt] in H; [|discriminate|].
  - cbn in S. destruct S as (c & -> & S). apply HP in S. apply bind_crash in H as [H|([? ?] & _ & ?)]; [|discriminate].
    destruct (IH r) as (c' & r' & -> & G); auto. { rewrite app_length in L. destruct c; [congruence|cbn in L; lia]. } exists (c ++ c'), r'. now rewrite app_assoc.
  - exists [], i. split; auto. congruence.
Qed.
Lemma full_anywhere : forall c r, full_header r -> has_full_header (c ++ r).
Proof. intros c r H. now exists c, r. Qed.
Theorem parse_panic_full : forall E d k, env_ok E -> parse E d = Crash k -> has_full_header d.
Proof.
  intros E d k HE H. pose proof (parse_crash _ _ _ HE H) as (_ & M & _). unfold parse in H. apply bind_crash in H as [H|([fs b] & _ & H)].
  - unfold parse_message in H. rewrite M in H. apply bind_crash in H as [H|([r fs] & _ & H)].
    + unfold fields in H. apply bind_crash in H as [H|([r t] & X & H)].
      * exfalso. destruct (f_trace E) eqn:T; [|discriminate].
        pose proof (post_many _ never (trace_block E) (field_text E) d (fun c f => field_text_nonempty E c f) (fun j => sound_trace_block E never j T)) as S. now rewrite H in S.
      * assert (G : exists c, d = c ++ r).
        { destruct (f_trace E) eqn:T; [|inversion X; now exists []].
          pose proof (post_many _ never (trace_block E) (field_text E) d (fun c f => field_text_nonempty E c f) (fun j => sound_trace_block E never j T)) as S. rewrite X in S.
          destruct S as (c & -> & _). eauto. }
        destruct G as [c ->]. apply bind_crash in H as [H|([? ?] & _ & ?)]; [|discriminate].
        eapply many_crash in H as (c' & r' & -> & H); [|intros u f; apply field_text_nonempty|intros j; apply (sound_any_field E j (ok_hash E HE))].
        rewrite app_assoc. apply full_anywhere. eapply any_field_crash; eauto.
    + exfalso. apply bind_crash in H as [H|(? & _ & ?)]; [|discriminate]. pose proof (mime_body_outcome r) as B. now rewrite H in B.
  - exfalso. pose proof (assemble_spec E fs b) as A. rewrite H in A. exact A.
Qed.
Theorem raw_entity_panic_full : forall E i k, env_ok E -> raw_entity E i = Crash k -> has_full_header i.
Proof.
  intros E i k HE H. unfold raw_entity in H. apply bind_crash in H as [H|([n a] & X & H)].
  - unfold header_part in H. apply bind_crash in H as [H|([r hs] & _ & H)].
    + eapply many_crash in H as (c' & r' & -> & H); [|intros u f; apply part_header_nonempty|intros j; apply (sound_entity_header E j (ok_hash E HE))].
      apply full_anywhere. eapply entity_header_crash; eauto.
    + exfalso. destruct r as [|x r]; [discriminate|]. apply bind_crash in H as [H|([? ?] & _ & ?)]; [|discriminate].
      destruct (tag_inv CRLF "TAG ERROR: A MIME entity header part must be followed by a CRLF sequence." (x :: r)) as [(r' & _ & Y)|(_ & Y)]; congruence.
  - exfalso. pose proof (header_part_spec E i (ok_hash E HE)) as S. rewrite X in S. destruct S as (hs & c & b & _ & -> & -> & <-). unfold usize_sub in H. rewrite app_length in H.
    destruct (Nat.ltb_spec (length c + length b) (length b)); [lia|]. cbn [bind] in H.
    replace (length c + length b - length b)%nat with (length c) in H by lia. rewrite index_from_app in H. cbn [bind] in H.
    match type of H with context [match ?x with _ => _ end] => destruct x as [[t s] p] end.
    apply bind_crash in H as [H|(? & _ & ?)]; [|discriminate]. match type of H with decode_value E ?v ?e = _ => pose proof (decode_value_spec E v e) as D end. now rewrite H in D.
Qed.

(* ---- parts of a multipart ---- *)
Lemma full_more : forall p v, full_header p -> full_header (p ++ v).
Proof. intros p v H. destruct H; rewrite <- !app_assoc; [eapply full_type|eapply full_disposition]; eauto. Qed.
Lemma full_inside : forall u p v, has_full_header p -> has_full_header (u ++ p ++ v).
Proof. intros u p v (c & r & -> & H). exists (u ++ c), (r ++ v). split; [now rewrite !app_assoc|now apply full_more]. Qed.
Lemma cut_inside : forall b i ps, cut_text b i ps -> forall p, In p ps -> exists u v, i = u ++ p ++ v.
Proof.
  assert (G : forall a b : bytes, (exists u v, b = u ++ a ++ v) -> forall x, exists u v, x ++ b = u ++ a ++ v).
  { intros a b (u & v & ->) x. exists (x ++ u), v. now rewrite app_assoc. }
  intros b i ps H. induction H; intros p' Hp; cbn [In] in Hp; (destruct Hp as [<-|Hp]; [eexists [], _; reflexivity|]); try (now destruct Hp); repeat apply G; auto.
Qed.
Lemma raw_entities_crash : forall E l k, raw_entities E l = Crash k -> exists p, In p l /\ raw_entity E p = Crash k.
Proof.
  intros E l. induction l as [|p l IH]; intros k H; cbn [raw_entities] in H; [discriminate|]. apply bind_crash in H as [H|(e & _ & H)]; [exists p; split; auto; now left|].
  apply bind_crash in H as [H|(es & _ & H)]; [|discriminate]. destruct (IH _ H) as (q & Hq & G). exists q. split; auto. now right.
Qed.
Theorem entity_panic_full : forall E r k, env_ok E -> entity E r = Crash k -> e_mime_type r = CMultipart /\ has_full_header (e_value r).
Proof.
  intros E r k HE H. unfold entity in H. destruct (e_mime_type r) eqn:T; try discriminate.
  - exfalso. destruct (map_get (e_parameters r) (bs "charset")) as [cs|]; [|discriminate]. destruct (find_charset (lowercase cs)) as [c|]; [|discriminate].
    destruct (decode_charset_no_crash E c (e_value r)) as [[v Hv]|Hv]; rewrite Hv in H; discriminate.
  - split; [reflexivity|]. apply bind_crash in H as [H|(c & _ & H)]; [|discriminate]. unfold parse_multipart in H.
    destruct (map_get (e_parameters r) (bs "boundary")) as [b|]; cbn [ok_or bind] in H; [|discriminate].
    pose proof (post_many _ never (before_boundary b) (split_text b) (e_value r) (split_nonempty b) (post_before_boundary _ b)) as S.
    destruct (many (before_boundary b) (e_value r)) as [[i l]|e|k']; cbn [bind] in H; [|discriminate|destruct S].
    destruct S as (c & Hc & S). rewrite Hc.
    destruct (before_closing_spec b i) as [(p & epi & -> & _ & Hp)|(_ & e & Hp)]; rewrite Hp in H; cbn [bind] in H; [|discriminate].
    assert (HC : cut_text b (c ++ p ++ closing_delimiter b ++ epi) (l ++ [p])) by (eapply cut_many; eauto; constructor).
    destruct (l ++ [p]) as [|q ps] eqn:L; [destruct l; discriminate|].
    match type of H with context [vec_remove ?x 0] => change x with (l ++ [p]) in H end. rewrite (vec_remove_0 _ _ _ _ L) in H. cbn [bind] in H.
    apply raw_entities_crash in H as (x & Hx & H). apply raw_entity_panic_full in H; auto.
    destruct (cut_inside _ _ _ HC x (or_intror Hx)) as (u & v & ->). now apply full_inside.
Qed.

(* ---- counting ---- *)
Lemma semicolons_app : forall a b, semicolons (a ++ b) = (semicolons a + semicolons b)%nat.
Proof. intros. apply count_occ_app. Qed.
Lemma one_semicolon : forall w x, (1 <= semicolons (w ++ bs ";" ++ x))%nat.
Proof. intros. rewrite !semicolons_app. change (semicolons (bs ";")) with 1%nat. lia. Qed.
Lemma item_semicolon : forall c x, rfc_disposition_item c x -> (1 <= semicolons c)%nat.
Proof. intros c x H. destruct H; try apply one_semicolon. destruct H. apply one_semicolon. Qed.
Lemma many_semicolons : forall A (P : bytes -> A -> Prop) c l, (forall c x, P c x -> (1 <= semicolons c)%nat) -> many_of P c l -> (length l <= semicolons c)%nat.
Proof. intros A P c l HP H. induction H as [|c a cs l Ha Hl IH]; [apply Nat.le_0_l|]. rewrite semicolons_app. apply HP in Ha. cbn [length]. lia. Qed.
Lemma params_of_length : forall l, (length (params_of l) <= length l)%nat.
Proof. intros l. unfold params_of. induction l as [|x l IH]; [auto|]. cbn [map concat length]. rewrite app_length. unfold bytes, byte in *. destruct x; cbn [length]; lia. Qed.
Definition index_list (raw : list param) : list N := flat_map (fun '(n, i, e, v) => match i with Some k => [k] | None => [] end) raw.
Lemma segment_listed : forall raw n k, segment raw n k <> None -> In k (index_list raw).
Proof.
  intros raw n k. unfold segment. induction raw as [|[[[n' i] e] v] raw IH]; cbn [last_some index_list flat_map]; [congruence|]. intros H. apply in_or_app.
  match type of H with match ?x with _ => _ end <> _ => destruct x end; [right; apply IH; congruence|]. left.
  destruct (bytes_eqb n n'); [|congruence]. destruct i as [k'|]; [|congruence]. destruct (N.eqb_spec k k'); [subst; now left|congruence].
Qed.
Lemma index_list_length : forall raw, (length (index_list raw) <= length raw)%nat.
Proof. intros raw. induction raw as [|[[[n i] e] v] raw IH]; [auto|]. cbn [index_list flat_map length] in *. rewrite app_length. unfold index_list in IH. destruct i; cbn [length]; lia. Qed.
Lemma all_indexes_length : forall raw, all_indexes raw -> (256 <= length raw)%nat.
Proof.
  intros raw [n H]. etransitivity; [|apply index_list_length].
  transitivity (length (map N.of_nat (seq 0 256))); [now rewrite map_length, seq_length|]. apply NoDup_incl_length.
  - apply FinFun.Injective_map_NoDup; [intros x y; apply Nnat.Nat2N.inj|apply seq_NoDup].
  - intros k Hk. apply in_map_iff in Hk as (m & <- & Hm). apply in_seq in Hm. apply (segment_listed raw n). apply H. lia.
Qed.
Lemma full_semicolons : forall d, has_full_header d -> (256 <= semicolons d)%nat.
Proof.
  intros d (pre & post & -> & H). rewrite semicolons_app. destruct H as [n w c k s ps raw rest _ _ _ _ Hm Ha|n w c k ps items rest _ _ _ Hm Ha]; rewrite !semicolons_app.
  - apply all_indexes_length in Ha. apply many_semicolons in Hm; [lia|]. intros ? ? []. apply one_semicolon.
  - apply all_indexes_length in Ha. pose proof (params_of_length items). apply many_semicolons in Hm; [lia|]. apply item_semicolon.
Qed.

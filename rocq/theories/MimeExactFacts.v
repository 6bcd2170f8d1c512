(* C53: with the mime feature, the parser accepts exactly the texts of a grammar. *)
From Coq Require Import Lia ZifyBool ZifyNat ZifyN Permutation.
From Verif Require Import SafetyProofs Base Utf8 CharSets Combinators Whitespace QuotedString EncodedWord Common Time Address Percent MimeFields Fields Message Entity Email Envs
  Rfc5322 Rfc2047 Post CodecSpec RfcFields SoundBase SoundTime SoundAddr TagNoCase ParamProofs SoundFields EmailSpec SoundMessage EmailProofs MessageFacts Steps Complete CompleteFields Forward ForwardText ForwardAddr
  ForwardList ForwardTime ForwardMime ForwardParams ForwardParts ForwardMimeFields ForwardFields ForwardMessage HeaderFacts LocalSpec Local LocalFacts KeptFacts Writers WriteFacts WriteAddr RegularSpec RegularFacts NeatFacts TidyFacts
  TraceFacts RangeFacts LinedFacts LessFacts LineSpec LineFacts LessExact KeenFacts PercentProofs ExactSpec RangeWrite ExactFacts MimeExactSpec MimeExactParts MimeExactBack MimeExactHeads PhraseSpec PhraseFacts PhraseBox PhraseHeads MimeExactFields.
Local Open Scope N_scope.

Section Messages.
Variable E : env.
Hypothesis HE : env_ok E.
Hypothesis HM : f_mime E = true.
Hypothesis HD : debug E = false.

(* ---- trace blocks ---- *)
Lemma phrase_resent_starts : forall c f i, phrase_resent E c f -> starts_header (c ++ i).
Proof. intros c f i H. destruct H as [c v H|c v H|c v H|c v H|c v H|c v H|c v H]; hstarts H. Qed.
Lemma phrase_resent_without : forall c f i name, phrase_resent E c f -> In name ["Return-Path"; "Received"]%string -> without name (c ++ i).
Proof. intros c f i name H Hn. cbn in Hn. destruct H as [c v H|c v H|c v H|c v H|c v H|c v H|c v H]; repeat (destruct Hn as [<-|Hn]; [other H|]); destruct Hn. Qed.
Lemma mime_block_until : forall c p r l i, mime_block E c (FTrace p r l) -> ends is_wsp i -> (exists e, resent_field E i = Err e) -> (l = [] -> exists e, received E i = Err e) ->
  trace_block E (c ++ i) = Ok (i, FTrace p r l).
Proof.
  intros c p r l i H Hi Hr Hl. inversion H as [c1 p' c2 r' c3 l' H1 Hne H2 H3]; subst. rewrite <- !app_assoc.
  assert (W3 : ends is_wsp (c3 ++ i)) by (eapply headers_start; [|exact Hi|exact H3]; intros; eapply phrase_resent_starts; eauto).
  assert (N3 : exists e, received E (c3 ++ i) = Err e). { destruct H3 as [|c4 a4 cs4 l4 H4 _]; [now apply Hl|]. apply received_none. rewrite <- app_assoc. eapply phrase_resent_without; eauto. in_list. }
  assert (W2 : ends is_wsp (c2 ++ c3 ++ i)) by (eapply headers_start; [|exact W3|exact H2]; intros; eapply received_starts; eauto).
  destruct (headers_steps _ _ (rfc_header "Received" (tidily (clear_received (f_compatibility_fixes E)))) (received E) eq (c3 ++ i)) with (c := c2) (l := r) as (r' & S2 & E2);
    [intros c0 a j Ha Hj; exists a; split; [now apply received_header_forward|reflexivity]|intros; eapply received_starts; eauto|exact W3|exact N3|exact H2|].
  apply forall2_eq in E2. subst r'.
  destruct (headers_steps _ _ (phrase_resent E) (resent_field E) eq i) with (c := c3) (l := l) as (l' & S3 & E3);
    [intros c0 a j Ha Hj; exists a; split; [now apply (phrase_resent_forward E HM)|reflexivity]|intros; eapply phrase_resent_starts; eauto|exact Hi|exact Hr|exact H3|].
  apply forall2_eq in E3. subst l'.
  unfold trace_block, trace. destruct H1 as [|c1 q H1].
  - cbn [app]. assert (N : without "Return-Path" (c2 ++ c3 ++ i)). { destruct H2 as [|c4 a4 cs4 l4 H4 _]; [congruence|]. rewrite <- app_assoc. other H4. }
    unfold optional. destruct (return_path_none E _ N) as [e ->]. cbn [attempt bind]. rewrite (many1_steps _ _ _ _ _ S2) by auto. cbn [bind]. rewrite (many_steps _ _ _ _ _ S3). reflexivity.
  - unfold optional. rewrite (return_path_forward E c1 q) by auto. cbn [attempt bind]. rewrite (many1_steps _ _ _ _ _ S2) by auto. cbn [bind]. rewrite (many_steps _ _ _ _ _ S3). reflexivity.
Qed.
Lemma mime_block_shape : forall c f i, mime_block E c f -> starts_header (c ++ i) /\ no_resent (c ++ i) /\ exists p r l, f = FTrace p r l /\ (p <> None -> without "Received" (c ++ i)).
Proof.
  intros c f i [c1 p c2 r c3 l H1 Hne H2 H3]. rewrite <- !app_assoc. destruct H2 as [|c4 a4 cs4 l4 H4 H5]; [congruence|]. rewrite <- app_assoc. destruct H1 as [|c1 q H1].
  - cbn [app]. split; [hstarts H4|]. split; [|exists None, (a4 :: l4), l; split; [auto|congruence]]. intros name Hn. cbn in Hn. repeat (destruct Hn as [<-|Hn]; [other H4|]). destruct Hn.
  - split; [hstarts H1|]. split; [intros name Hn; cbn in Hn; repeat (destruct Hn as [<-|Hn]; [other H1|]); destruct Hn|]. exists (Some q), (a4 :: l4), l. split; auto. intros _. other H1.
Qed.
Lemma mime_blocks_until : forall c fs, mime_blocks E c fs -> forall i, ends is_wsp i ->
  (exists e, trace_block E i = Err e) -> (exists e, resent_field E i = Err e) -> (exists e, received E i = Err e) -> steps (trace_block E) (c ++ i) fs i.
Proof.
  intros c fs H. induction H as [|c f cs fs Hb Hs Hbs IH]; intros i Hi Ht Hr Hv.
  - destruct Ht as [e He]. eapply steps_stop. exact He.
  - rewrite <- app_assoc. eapply steps_more; [| |exact (IH i Hi Ht Hr Hv)].
    + destruct (mime_block_shape c f [] Hb) as (_ & _ & p & r & l & -> & _). apply mime_block_until; auto.
      * destruct Hbs as [|c2 f2 cs2 fs2 H2 _ _]; [exact Hi|]. rewrite <- app_assoc. apply starts_header_wsp. now apply (mime_block_shape c2 f2 (cs2 ++ i) H2).
      * destruct Hbs as [|c2 f2 cs2 fs2 H2 _ _]; [exact Hr|]. apply resent_none. rewrite <- app_assoc. now apply (mime_block_shape c2 f2 (cs2 ++ i) H2).
      * intros ->. destruct Hbs as [|c2 f2 cs2 fs2 H2 _ _]; [exact Hv|]. apply received_none. rewrite <- app_assoc. destruct (mime_block_shape c2 f2 (cs2 ++ i) H2) as (_ & _ & p2 & r2 & l2 & -> & W).
        apply W. cbn in Hs. destruct Hs; congruence.
    + apply starts_header_nonempty; [|intros j]; eapply mime_block_shape; eauto.
Qed.
Lemma block_back : forall j r p rc l, trace_block E j = Ok (r, FTrace p rc l) -> no_blank r ->
  exists c, j = c ++ r /\ mime_block E c (FTrace p rc l) /\ (exists e, resent_field E r = Err e) /\ (l = [] -> exists e, received E r = Err e) /\ (p = None -> exists x, received E j = Ok x).
Proof.
  intros j r p rc l H Hr. unfold trace_block, trace in H. destruct (optional (return_path E) j) as [[j1 o]|e|k] eqn:O; cbn [bind] in H; try discriminate.
  destruct (many1 (received E) j1) as [[j2 rs]|e|k] eqn:R; cbn [bind] in H; try discriminate. destruct (many (resent_field E) j2) as [[j3 ls]|e|k] eqn:L; cbn [bind] in H; try discriminate. injection H as -> -> -> ->.
  apply many_inv in L; [|exact (progress_resent E)].
  assert (N2 : no_blank j2). { inversion L; subst; [exact Hr|]. eapply resent_on; eauto. }
  unfold many1 in R. destruct (received E j1) as [[j1' v]|e|k] eqn:R1; cbn [bind] in R; try discriminate. destruct (many (received E) j1') as [[j2' vs]|e|k] eqn:R2; cbn [bind] in R; try discriminate. injection R as -> <-.
  apply many_inv in R2; [|exact (progress_received E)].
  assert (N1' : no_blank j1'). { inversion R2; subst; [exact N2|]. eapply received_on; eauto. }
  assert (C : exists c0, j = c0 ++ j1 /\ clear_return (f_compatibility_fixes E) c0 p /\ (p = None -> j1 = j)).
  { unfold optional in O. destruct (return_path E j) as [[j0 q]|e|k] eqn:Q; cbn [attempt] in O; try discriminate; injection O as <- <-.
    - destruct (return_inv E _ _ _ Q (received_on _ _ _ _ R1)) as (c0 & X & Hc0). exists c0. split; [exact X|]. split; [now constructor|discriminate].
    - exists []. split; [reflexivity|]. split; [constructor|reflexivity]. }
  destruct C as (c0 & X0 & Hc0 & E0). destruct (received_inv E _ _ _ R1 N1') as (c1 & X1 & Hc1).
  destruct (steps_texts_of _ _ _ (received_inv E) (received_on E) _ _ _ R2 N2) as (c2 & X2 & Hc2 & He2).
  destruct (steps_texts_of _ _ _ (phrase_resent_back E HM) (resent_on E) _ _ _ L Hr) as (c3 & X3 & Hc3 & He3).
  exists (c0 ++ (c1 ++ c2) ++ c3). split; [rewrite X0, X1, X2, X3; now rewrite <- !app_assoc|]. split; [constructor; auto; [discriminate|now constructor]|]. split; [exact He3|]. split.
  - intros ->. inversion Hc3; subst. cbn [app] in He2. exact He2.
  - intros P. exists (j1', v). rewrite <- (E0 P). exact R1.
Qed.
Lemma blocks_back : forall j t r, steps (trace_block E) j t r -> no_blank r ->
  exists c, j = c ++ r /\ mime_blocks E c t /\ (exists e, trace_block E r = Err e) /\ (t <> [] -> exists e, resent_field E r = Err e).
Proof.
  intros j t r H Hr. induction H as [i e H|i r a l r' H _ Hs IH]; [exists []; split; [reflexivity|]; split; [constructor|]; split; [eauto|congruence]|].
  assert (N : no_blank r). { inversion Hs; subst; [exact Hr|]. eapply block_on; eauto. }
  destruct (block_trace E _ _ _ H) as (p & rc & ls & ->). destruct (block_back _ _ _ _ _ H N) as (d & -> & Hd & Hre & Hrc & _). destruct (IH Hr) as (c & X & Hc & He & Hz).
  exists (d ++ c). split; [rewrite X at 1; now rewrite app_assoc|]. split; [|split; [exact He|]].
  - constructor; auto. destruct l as [|g l]; [exact I|]. cbn. destruct g as [| | | | | | | | | | | | | | | | | | |p2 rc2 ls2|]; try exact I. destruct ls as [|z ls]; [right|left; discriminate]. intros ->. destruct (Hrc eq_refl) as [e1 E1].
    inversion Hs as [|i0 r0 a0 l0 r1 H0 _ Hs0]; subst. assert (N0 : no_blank r0). { inversion Hs0; subst; [exact Hr|]. eapply block_on; eauto. }
    destruct (block_back _ _ _ _ _ H0 N0) as (_ & _ & _ & _ & _ & G). destruct (G eq_refl) as [x G']. congruence.
  - intros _. destruct l as [|g l]; [|apply Hz; discriminate]. clear X. inversion Hs; subst. exact Hre.
Qed.

(* ---- the other headers ---- *)
Lemma reads_lines : forall c l, many_of (mime_read E) c l -> hlines c.
Proof. intros c l H. eapply hlines_many; [|exact H]. intros c' a Ha. apply hlines_one. eapply mime_read_line; eauto. Qed.
Lemma mime_reads_start : forall c l c3, many_of (mime_read E) c l -> bare c3 -> ends is_wsp (c ++ c3).
Proof. intros c l c3 H Hb. apply hlines_wsp; [eapply reads_lines; eauto|exact Hb]. Qed.
Lemma mime_field_no_trace : forall c f i, f_trace E = true -> mime_field E c f -> no_trace (c ++ i).
Proof.
  intros c f i HT H. destruct H as [c f H _|c f H|n q t x k s l Hn H|n q t x d Hn H]; [eapply clear_field_no_trace; eauto| | |].
  - intros name N. destruct H as [c v F H|c v F H|c v F H|c v F H|c v F H|c v F H|c k l F H]; cbn in N; repeat (destruct N as [<-|N]; [other H|]); destruct N.
  - pose proof (any_header "Content-Type" n t Hn) as G. intros name N. cbn in N. repeat (destruct N as [<-|N]; [other G|]). destruct N.
  - pose proof (any_header "Content-Disposition" n t Hn) as G. intros name N. cbn in N. repeat (destruct N as [<-|N]; [other G|]). destruct N.
Qed.
Lemma mime_taken : forall A (p : parser A) c l c3 r v, f_trace E = true -> stops p -> (forall i, ends is_wsp i -> hlocal i i p) -> (forall i, no_trace i -> exists e, p i = Err e) -> many_of (mime_read E) c l -> bare c3 ->
  p (c ++ c3) = Ok (r, v) -> exists c' l', r = c' ++ c3 /\ many_of (mime_read E) c' l'.
Proof.
  intros A p c l c3 r v HT HS HL HN H Hb X. destruct H as [|c f cs l H Hs]. { destruct (HN c3 (bare_no_trace _ Hb)) as [e Y]. cbn [app] in X. congruence. }
  exists cs, l. split; [|exact Hs]. rewrite <- app_assoc in X. pose proof (mime_reads_start cs l c3 Hs Hb) as W. destruct H as [c f H|n t u Hn Ht _ _].
  - destruct (HN (c ++ cs ++ c3)) as [e Y]; [eapply mime_field_no_trace; eauto|]. congruence.
  - rewrite <- !app_assoc in X. destruct (value_shape E _ _ _ Ht) as [y Hy]. eapply (stops_line A p n t); [exact HS|now apply HL|exact Hn|eapply lined_unstructured; eauto|apply (text_unblank false (textcode E) t y Hy)|exact X].
Qed.
Lemma no_start_received' : forall c l c3, f_trace E = true -> many_of (mime_read E) c l -> bare c3 -> ~ begins (block_start E) (c ++ c3) -> exists e, received E (c ++ c3) = Err e.
Proof.
  intros c l c3 HT H Hb HN. destruct (received E (c ++ c3)) as [[r v]|e|k] eqn:R; [|eauto|].
  - exfalso. destruct (mime_taken _ (received E) c l c3 r v HT (stops_received E)) as (c' & l' & -> & H'); auto; [intros; now apply hlocal_received|apply received_no|].
    pose proof (ends_no_blank _ (mime_reads_start c' l' c3 H' Hb)) as W. destruct (received_inv E _ _ _ R W) as (d & X & Hd). apply HN. exists d, (None, v), (c' ++ c3). split; [apply (block_start_intro E [] None d v); [constructor|exact Hd]|]. split; [exact X|exact W].
  - exfalso. assert (S : post never (received E (c ++ c3)) (c ++ c3) (rfc_header "Received" (rfc_received (f_compatibility_fixes E)))) by (apply sound_header; [reflexivity|reflexivity|intros; apply sound_received_value]). rewrite R in S. exact S.
Qed.
Lemma no_start_block' : forall c l c3, f_trace E = true -> many_of (mime_read E) c l -> bare c3 -> ~ begins (block_start E) (c ++ c3) -> exists e, trace_block E (c ++ c3) = Err e.
Proof.
  intros c l c3 HT H Hb HN. unfold trace_block, trace, optional. destruct (return_path E (c ++ c3)) as [[r q]|e|k] eqn:Q; cbn [attempt bind].
  - destruct (mime_taken _ (return_path E) c l c3 r q HT (stops_return_path E)) as (c' & l' & -> & H'); auto; [intros; now apply hlocal_return_path|apply return_no|].
    pose proof (ends_no_blank _ (mime_reads_start c' l' c3 H' Hb)) as W. destruct (return_inv E _ _ _ Q W) as (d & X & Hd). unfold many1. destruct (received E (c' ++ c3)) as [[r v]|e|k] eqn:R; cbn [bind]; [exfalso|eauto|exfalso].
    + destruct (mime_taken _ (received E) c' l' c3 r v HT (stops_received E)) as (c2 & l2 & -> & H2); auto; [intros; now apply hlocal_received|apply received_no|].
      pose proof (ends_no_blank _ (mime_reads_start c2 l2 c3 H2 Hb)) as W2. destruct (received_inv E _ _ _ R W2) as (d2 & X2 & Hd2). apply HN. exists (d ++ d2), (Some q, v), (c2 ++ c3). split; [constructor; [now constructor|exact Hd2]|].
      split; [rewrite X, X2; now rewrite app_assoc|exact W2].
    + assert (S : post never (received E (c' ++ c3)) (c' ++ c3) (rfc_header "Received" (rfc_received (f_compatibility_fixes E)))) by (apply sound_header; [reflexivity|reflexivity|intros; apply sound_received_value]). rewrite R in S. exact S.
  - destruct (no_start_received' c l c3 HT H Hb HN) as [e' R]. unfold many1. rewrite R. cbn [bind]. eauto.
  - exfalso. assert (S : post never (return_path E (c ++ c3)) (c ++ c3) (rfc_header "Return-Path" (rfc_path (f_compatibility_fixes E)))) by (apply sound_header; [reflexivity|reflexivity|intros; apply sound_path]). rewrite Q in S. exact S.
Qed.
Lemma no_start_resent' : forall c l c3, f_trace E = true -> many_of (mime_read E) c l -> bare c3 ->
  ~ begins (phrase_resent E) (c ++ c3) -> exists e, resent_field E (c ++ c3) = Err e.
Proof.
  intros c l c3 HT H Hb HN. destruct (resent_field E (c ++ c3)) as [[r v]|e|k] eqn:R; [|eauto|].
  - exfalso. destruct (mime_taken _ (resent_field E) c l c3 r v HT (stops_resent_field E)) as (c' & l' & -> & H'); auto; [intros; now apply hlocal_resent_field|apply resent_no|].
    pose proof (ends_no_blank _ (mime_reads_start c' l' c3 H' Hb)) as W. destruct (phrase_resent_back E HM _ _ _ R W) as (d & X & Hd). apply HN. exists d, v, (c' ++ c3). split; [exact Hd|]. split; [exact X|exact W].
  - exfalso. pose proof (sound_resent_field E never (c ++ c3)) as S. rewrite R in S. exact S.
Qed.
Lemma mime_reads_steps : forall c3, bare c3 -> forall c l, many_of (mime_read E) c l -> exists l', steps (any_field E) (c ++ c3) l' c3 /\ Forall2 same_field l l'.
Proof.
  intros c3 Hb c l H. induction H as [|c f cs l H Hs IH].
  - destruct (any_field_bare E c3 Hb) as [e He]. exists []. split; [eapply steps_stop; exact He|constructor].
  - rewrite <- app_assoc in *. pose proof (mime_read_line E HE HM HD _ _ H) as L. destruct (mime_read_forward E HE HM HD c f (cs ++ c3) H (mime_reads_start cs l c3 Hs Hb)) as (f' & X & Y).
    destruct IH as (l' & S & R). exists (f' :: l'). split; [|now constructor]. eapply steps_more; [exact X| |exact S].
    pose proof (hline_nonempty _ L). rewrite (app_length c). destruct c; [congruence|]. cbn [length]. lia.
Qed.

(* ---- messages ---- *)
Theorem mime_message_back : forall d fs b, parse_message E d = Ok (fs, b) -> mime_message_read E d fs b.
Proof.
  intros d fs b H. apply message_ok in H as (c3 & H & Hb & Hr & _). rewrite fields_parts in H. destruct (trace_part E d) as [[i t]|e|k] eqn:T; cbn [bind] in H; try discriminate.
  destruct (many (any_field E) i) as [[r l]|e|k] eqn:M; cbn [bind] in H; try discriminate. injection H as -> <-. apply many_inv in M; [|exact (progress_any_field E HE)].
  assert (N3 : no_blank c3) by (now apply ends_no_blank, bare_wsp).
  assert (W : no_blank i). { inversion M; subst; [exact N3|]. eapply ExactFacts.any_field_on; eauto. }
  unfold trace_part in T. destruct (f_trace E) eqn:F.
  - apply many_inv in T; [|exact (progress_block E F)]. destruct (blocks_back _ _ _ T W) as (c1 & -> & H1 & He & Hz).
    destruct (steps_texts_of _ _ _ (mime_read_inv E HE HM HD) (fun j r a => ExactFacts.any_field_on E j r a HE) _ _ _ M N3) as (c2 & -> & H2 & _). apply mime_message_intro; auto; [congruence| |].
    + intros _ B. destruct He as [e He]. exact (begins_block E _ e B He).
    + intros Ht (c & a & r & Ha & X & Hn). destruct (Hz Ht) as [e He2]. rewrite X in He2. rewrite (phrase_resent_forward E HM c a r Ha (new_line_ends _ Hn)) in He2. discriminate.
  - injection T as -> <-. destruct (steps_texts_of _ _ _ (mime_read_inv E HE HM HD) (fun j r a => ExactFacts.any_field_on E j r a HE) _ _ _ M N3) as (c2 & -> & H2 & _).
    apply (mime_message_intro E [] [] c2 l c3 b); auto; [apply mime_blocks_nil|congruence..].
Qed.
Theorem mime_message_forward : forall d fs b, mime_message_read E d fs b -> exists fs', parse_message E d = Ok (fs', b) /\ Forall2 same_field fs fs'.
Proof.
  intros d fs b H. destruct H as [c1 t c2 l c3 b H1 Ht HS HR H2 H3]. pose proof (rest_bare _ _ H3) as Hb.
  destruct (mime_reads_steps c3 Hb c2 l H2) as (l' & S & R). exists (t ++ l'). split; [|apply Forall2_app; [apply same_field_list_refl|exact R]].
  apply message_ok. exists c3. split; [|split; [exact Hb|split; [exact H3|congruence]]]. pose proof (mime_reads_start c2 l c3 H2 Hb) as W.
  rewrite fields_parts. assert (T : trace_part E (c1 ++ c2 ++ c3) = Ok (c2 ++ c3, t)).
  { unfold trace_part. destruct (f_trace E) eqn:F.
    - apply many_steps. specialize (HS eq_refl). pose proof (no_start_block' c2 l c3 F H2 Hb HS) as B. destruct t as [|f t].
      + inversion H1; subst. cbn [app]. destruct B as [e B]. eapply steps_stop; exact B.
      + apply mime_blocks_until; auto; [apply (no_start_resent' c2 l c3 F H2 Hb); apply HR; discriminate|now apply (no_start_received' c2 l c3)].
    - rewrite (Ht eq_refl) in *. inversion H1; subst. reflexivity. }
  rewrite T. cbn [bind]. rewrite (many_steps _ _ _ _ _ S). reflexivity.
Qed.

(* ---- emails ---- *)
Lemma email_acceptable : forall fs b e, email_of E fs b e -> acceptable E fs b.
Proof.
  intros fs b e H. pose proof (of_unique _ _ _ _ H) as HN. constructor; [exact HN|..].
  - intros F. pose proof (of_from _ _ _ _ H) as X. rewrite F in X. intros Y. unfold only in X. now rewrite Y in X.
  - intros F. pose proof (of_date _ _ _ _ H) as X. rewrite F in X. destruct X as [X X']. intros Y. unfold only in X. rewrite Y in X. cbn in X. congruence.
  - intros F. pose proof (ok_sender _ HE F) as F'. pose proof (of_sender _ _ _ _ H) as X. rewrite F in X. destruct X as [X X']. pose proof (of_from _ _ _ _ H) as Y. rewrite F' in Y.
    destruct (pick is_sender fs) eqn:P; [|left; discriminate]. right. unfold only at 1 in X. rewrite P in X. cbn in X. destruct (from e) as [|m [|m' l]] eqn:Q; try congruence. exists m.
    apply (pick_once _ is_from "From" fs [m]); auto. intros f x. destruct f; cbn; try discriminate. reflexivity.
  - intros M t ->. pose proof (of_mime _ _ _ _ H) as X. rewrite M in X. destruct X as (v & X & _). eauto.
  - congruence.
Qed.
Theorem mime_parse_back : forall d e, parse E d = Ok e -> exists fs b, mime_message_read E d fs b /\ email_of E fs b e.
Proof. intros d e H. destruct (parse_ok_message E d e H) as (fs & b & M). exists fs, b. split; [now apply mime_message_back|]. now apply (parse_iff_email E d fs b e HE M). Qed.
Theorem mime_parse_forward : forall d fs b e, mime_message_read E d fs b -> email_of E fs b e -> exists fs' e', parse E d = Ok e' /\ Forall2 same_field fs fs' /\ email_of E fs' b e'.
Proof.
  intros d fs b e HR He. destruct (mime_message_forward d fs b HR) as (fs' & M & S). destruct (acceptable_email E d fs' b HE M) as (e' & P & He'); [|eauto 6]. apply (acceptable_same E fs fs' b S). eapply email_acceptable; eauto.
Qed.
Theorem mime_parse_iff : forall d, (exists e, parse E d = Ok e) <-> exists fs b e, mime_message_read E d fs b /\ email_of E fs b e.
Proof.
  intros d. split.
  - intros [e H]. destruct (mime_parse_back d e H) as (fs & b & X). eauto.
  - intros (fs & b & e & HR & He). destruct (mime_parse_forward d fs b e HR He) as (fs' & e' & X & _). eauto.
Qed.
Theorem mime_rejected_iff : forall d, (exists err, parse E d = Err err) <-> ~ exists fs b e, mime_message_read E d fs b /\ email_of E fs b e.
Proof.
  intros d. rewrite <- mime_parse_iff. split.
  - intros [err H] [e X]. congruence.
  - intros H. destruct (parse_total E d HE (or_introl HD)) as [X|X]; [contradiction|exact X].
Qed.
Theorem mime_field_iff : forall c i, new_line i -> (exists f, any_field E (c ++ i) = Ok (i, f)) <-> exists f, mime_read E c f.
Proof.
  intros c i Hi. apply new_line_ends in Hi. split.
  - intros [f H]. destruct (mime_read_inv E HE HM HD _ _ _ H (ends_no_blank _ Hi)) as (c' & X & Hc). apply app_inv_tail in X. subst c'. eauto.
  - intros [f H]. destruct (mime_read_forward E HE HM HD c f i H Hi) as (f' & X & _). eauto.
Qed.
End Messages.

(* ---- a mail with a header that is cut ---- *)
Lemma cut_no_trace : forall E c r i, cut_field E c r -> no_trace (c ++ i).
Proof.
  intros E c r i H name N. destruct H as [c v r H|c e r H|n t x v r Hn _ _|n t x d r Hn _ _|n t l r _ Hn _ _].
  - cbn in N. repeat (destruct N as [<-|N]; [other H|]). destruct N.
  - cbn in N. repeat (destruct N as [<-|N]; [other H|]). destruct N.
  - pose proof (any_header "Content-Type" n t Hn) as G. cbn in N. repeat (destruct N as [<-|N]; [other G|]). destruct N.
  - pose proof (any_header "Content-Disposition" n t Hn) as G. cbn in N. repeat (destruct N as [<-|N]; [other G|]). destruct N.
  - pose proof (any_header "Keywords" n t Hn) as G. cbn in N. repeat (destruct N as [<-|N]; [other G|]). destruct N.
Qed.
Theorem cut_rejected : forall E ls c w z i, env_ok E -> f_mime E = true -> debug E = false -> Forall proper_line ls -> cut_field E c (w :: z ++ CRLF) -> rfc_WSP w -> new_line i ->
  exists err, parse E (LineSpec.block_text ls ++ c ++ (w :: z ++ CRLF) ++ i) = Err err.
Proof.
  intros E ls c w z i HE HM HD Hl Hc Hw Hi. destruct (parse_total E (LineSpec.block_text ls ++ c ++ (w :: z ++ CRLF) ++ i) HE (or_introl HD)) as [[e P]|P]; [exfalso|exact P].
  apply parse_ok_message in P as (fs & b & P). apply message_ok in P as (r & P & Hr & _). apply new_line_ends in Hi.
  destruct (cut_forward E HE HM HD c (w :: z ++ CRLF) i Hc (crlf_text (w :: z)) Hi) as (f & F).
  assert (W : ends is_wsp (c ++ (w :: z ++ CRLF) ++ i)). { apply no_blank_ends. eapply ExactFacts.any_field_on; eauto. }
  destruct (fields_edit E _ (c ++ (w :: z ++ CRLF) ++ i) [] r fs HE (proper_hlines _ Hl) W I) as (l1 & l2 & _ & S & _); auto.
  { intros T. split; [eapply cut_no_trace; eauto|apply bare_no_trace, nil_bare]. }
  assert (K : forall x, ~ no_blank ((w :: x) ++ i)) by (intros x Y; exact (Y w (x ++ i) eq_refl Hw)).
  inversion S as [j e0 X|j r' a l r'' X _ S']; subst; rewrite F in X; [discriminate|]. injection X as <- <-. inversion S' as [j e0 Y|j r1 a l0 r'' Y _ _]; subst.
  - apply (K (z ++ CRLF)). apply ends_no_blank, bare_wsp. exact Hr.
  - apply (K (z ++ CRLF)). eapply ExactFacts.any_field_on; eauto.
Qed.

(* ---- the structured headers, in any build ---- *)
Theorem structured_exact : forall E c f i, env_ok E -> f_mime E = true -> structured_kind f -> new_line i -> any_field E (c ++ i) = Ok (i, f) <-> mime_field E c f.
Proof.
  intros E c f i HE HM Hf Hi. apply new_line_ends in Hi. split.
  - intros H. destruct (structured_read E _ _ _ HE HM H (ends_no_blank _ Hi) Hf) as (c' & X & Hc). apply app_inv_tail in X. now subst c'.
  - intros H. destruct H as [c f H _|c f H|n q t x k s l Hn H|n q t x d Hn H]; [|now apply phrase_field_forward|destruct Hf..].
    destruct (any_field_forward E c f i (ok_hash _ HE) H Hi) as (f' & X & Y). destruct Y; [exact X|destruct Hf..].
Qed.
Theorem structured_plain : forall E c f i, env_ok E -> f_mime E = false -> structured_kind f -> new_line i -> any_field E (c ++ i) = Ok (i, f) <-> clear_field E c f.
Proof.
  intros E c f i HE HM Hf Hi. rewrite (field_exact E c f i HE HM Hi). split; [|apply read_clear]. intros H. destruct H; [assumption|destruct Hf].
Qed.
Theorem resent_exact : forall E c f i, f_mime E = true -> new_line i -> resent_field E (c ++ i) = Ok (i, f) <-> phrase_resent E c f.
Proof.
  intros E c f i HM Hi. apply new_line_ends in Hi. split.
  - intros H. destruct (phrase_resent_back E HM _ _ _ H (ends_no_blank _ Hi)) as (c' & X & Hc). apply app_inv_tail in X. now subst c'.
  - intros H. now apply phrase_resent_forward.
Qed.
Theorem resent_plain : forall E c f i, f_mime E = false -> new_line i -> resent_field E (c ++ i) = Ok (i, f) <-> clear_resent false (f_compatibility_fixes E) (encoded E) c f.
Proof.
  intros E c f i HM Hi. apply new_line_ends in Hi. rewrite <- HM. split.
  - intros H. destruct (resent_inv E _ _ _ HM H (ends_no_blank _ Hi)) as (c' & X & Hc). apply app_inv_tail in X. now subst c'.
  - intros H. now apply resent_field_forward.
Qed.

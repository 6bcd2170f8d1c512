(* Completeness, part 10: trace blocks and whole messages. *)
From Coq Require Import Lia ZifyBool ZifyNat ZifyN Permutation.
From Verif Require Import Base Utf8 CharSets Combinators Whitespace QuotedString Common Time Address Percent MimeFields Fields Message
  Rfc5322 Rfc2047 Post CodecSpec RfcFields SoundBase SoundTime TagNoCase ParamProofs SoundFields EmailSpec SoundMessage Steps Complete CompleteFields Forward ForwardText ForwardAddr
  ForwardList ForwardTime ForwardMime ForwardParams ForwardParts ForwardMimeFields ForwardTrace ForwardFields.
Local Open Scope N_scope.

(* ---- resent headers ---- *)
Definition resent_names : list string := ["Resent-Date"; "Resent-From"; "Resent-Sender"; "Resent-To"; "Resent-Cc"; "Resent-Bcc"; "Resent-Message-ID"]%string.
Definition no_resent (i : bytes) : Prop := forall name, In name resent_names -> without name i.
Ltac resent_skip nm W := rewrite parsers_skip by (apply pmap_err; apply resent_without with (name := nm); [reflexivity|reflexivity|W]).
Lemma resent_none : forall E i, no_resent i -> exists e, resent_field E i = Err e.
Proof.
  intros E i H. unfold resent_field.
  resent_skip "Date"%string ltac:(apply H; in_list). resent_skip "From"%string ltac:(apply H; in_list). resent_skip "Sender"%string ltac:(apply H; in_list). resent_skip "To"%string ltac:(apply H; in_list).
  resent_skip "Cc"%string ltac:(apply H; in_list). resent_skip "Bcc"%string ltac:(apply H; in_list). resent_skip "Message-ID"%string ltac:(apply H; in_list). cbn. eauto.
Qed.
Ltac resent_hit nm H := apply parsers_hit; apply pmap_ok; eapply resent_forward with (name := nm); [reflexivity|reflexivity|exact H|].
Lemma resent_field_forward : forall E c f i, clear_resent (f_mime E) (f_compatibility_fixes E) (encoded E) c f -> ends is_wsp i -> resent_field E (c ++ i) = Ok (i, f).
Proof.
  intros E c f i H Hi. unfold resent_field. destruct H as [c v H|c v H|c v H|c v H|c v H|c v H|c v H].
  - resent_hit "Date"%string H. intros c' v' [Hv Ht]. apply date_time_forward; auto. now apply tidy_follows.
  - resent_skip "Date"%string ltac:(other H). resent_hit "From"%string H. intros c' v' [Hv Ht]. apply mailbox_list_forward; auto; [now apply tidy_follows|split; reflexivity|reflexivity].
  - resent_skip "Date"%string ltac:(other H). resent_skip "From"%string ltac:(other H). resent_hit "Sender"%string H. intros c' v' [Hv Ht]. apply mailbox_forward; auto; [now apply tidy_follows|split; reflexivity].
  - resent_skip "Date"%string ltac:(other H). resent_skip "From"%string ltac:(other H). resent_skip "Sender"%string ltac:(other H). resent_hit "To"%string H.
    intros c' v' [Hv Ht]. apply address_list_forward; auto; [now apply tidy_follows|split; reflexivity|reflexivity].
  - resent_skip "Date"%string ltac:(other H). resent_skip "From"%string ltac:(other H). resent_skip "Sender"%string ltac:(other H). resent_skip "To"%string ltac:(other H). resent_hit "Cc"%string H.
    intros c' v' [Hv Ht]. apply address_list_forward; auto; [now apply tidy_follows|split; reflexivity|reflexivity].
  - resent_skip "Date"%string ltac:(other H). resent_skip "From"%string ltac:(other H). resent_skip "Sender"%string ltac:(other H). resent_skip "To"%string ltac:(other H). resent_skip "Cc"%string ltac:(other H).
    resent_hit "Bcc"%string H. intros c' v' [Hv Ht]. apply bcc_forward; [now split|now apply tidy_follows].
  - resent_skip "Date"%string ltac:(other H). resent_skip "From"%string ltac:(other H). resent_skip "Sender"%string ltac:(other H). resent_skip "To"%string ltac:(other H). resent_skip "Cc"%string ltac:(other H).
    resent_skip "Bcc"%string ltac:(other H). resent_hit "Message-ID"%string H. intros c' v' [Hv Ht]. apply message_id_forward; auto. now apply tidy_follows.
Qed.

(* ---- what a header starts with ---- *)
Lemma nocase_ftext : forall n (name : string), same_nocase n (bs name) -> Forall (fun x => 65 <= x <= 90 \/ 97 <= x <= 122 \/ x = 45) (bs name) -> chars rfc_ftext n.
Proof.
  intros n name. unfold same_nocase, chars. generalize (bs name). intros m. revert n. induction m as [|y m IH]; intros [|x n] H Hm; try discriminate; constructor.
  - injection H as H _. inversion Hm as [|? ? Hy _]; subst. unfold rfc_ftext. unfold fold_case in H. destruct ((65 <=? x) && (x <=? 90)) eqn:?, ((65 <=? y) && (y <=? 90)) eqn:?; lia.
  - injection H as _ H. inversion Hm; subst. auto.
Qed.
Ltac letters := match goal with |- Forall ?P ?l => let l' := eval vm_compute in l in change (Forall P l') end; repeat (apply Forall_cons; [lia|]); apply Forall_nil.
(* text that starts with a header *)
Definition starts_header (i : bytes) : Prop := exists n r, i = n ++ [58] ++ r /\ chars1 rfc_ftext n.
Lemma header_starts : forall A (name : string) (V : bytes -> A -> Prop) c v i, rfc_header name V c v -> bs name <> [] -> Forall (fun x => 65 <= x <= 90 \/ 97 <= x <= 122 \/ x = 45) (bs name) -> starts_header (c ++ i).
Proof.
  intros A name V c v i [n c' v' Hn Hv] Hne Hl. exists n, (c' ++ CRLF ++ i). rewrite <- !app_assoc. split; auto. split; [|eapply nocase_ftext; eauto].
  intros ->. apply nocase_length in Hn. destruct (bs name); [congruence|discriminate].
Qed.
Ltac hstarts H := eapply header_starts; [exact H|discriminate|letters].
Lemma starts_header_wsp : forall i, starts_header i -> ends is_wsp i.
Proof. intros i (n & r & -> & Hn). destruct n as [|x n]; [now destruct Hn|]. destruct Hn as [_ Hn]. inversion Hn as [|? ? Hx _]; subst. cbn. apply ftext_spec in Hx. destruct (is_wsp x) eqn:W; auto. apply wsp_spec in W. apply ftext_spec in Hx. unfold rfc_ftext, rfc_WSP in *. lia. Qed.
Lemma bare_wsp : forall i, bare i -> ends is_wsp i.
Proof. intros i [->|[b ->]]; [exact I|reflexivity]. Qed.
Lemma clear_field_starts : forall E c f i, clear_field E c f -> starts_header (c ++ i).
Proof.
  intros E c f i H. destruct H as [c v Hf H|c v Hf H|c v Hf H|c v Hf H|c v Hf H|c v Hf H|c v Hf H|c v Hf H|c v Hf H|c v Hf H|c v Hf H|c v Hf H|c v Hf H
     |c x y Hf H|c t s p Hf H|c v Hf H|c v Hf H|c v Hf H|c v Hf H|c n v H]; try (hstarts H).
  inversion H; subst. exists n, (c0 ++ CRLF ++ i). rewrite <- !app_assoc. auto.
Qed.
Lemma starts_header_nonempty : forall c i, starts_header (c ++ i) -> (forall i, starts_header (c ++ i)) -> (length i < length (c ++ i))%nat.
Proof. intros c i _ H. destruct c as [|x c]; [|rewrite app_length; cbn [length]; lia]. destruct (H []) as (n & r & E & Hn & _). cbn in E. destruct n; [congruence|discriminate]. Qed.

(* the headers of trace blocks *)
Definition trace_names : list string := ["Return-Path"; "Received"]%string ++ resent_names.
Definition no_trace (i : bytes) : Prop := forall name, In name trace_names -> without name i.
Lemma bare_no_trace : forall i, bare i -> no_trace i.
Proof.
  intros i H name Hn. apply bare_without; auto. cbn in Hn. repeat (destruct Hn as [<-|Hn]; [discriminate|]). destruct Hn.
Qed.
Lemma clear_field_no_trace : forall E c f i, clear_field E c f -> f_trace E = true -> no_trace (c ++ i).
Proof.
  intros E c f i H Ht name Hn. destruct H as [c v Hf H|c v Hf H|c v Hf H|c v Hf H|c v Hf H|c v Hf H|c v Hf H|c v Hf H|c v Hf H|c v Hf H|c v Hf H|c v Hf H|c v Hf H
     |c x y Hf H|c t s p Hf H|c v Hf H|c v Hf H|c v Hf H|c v Hf H|c n v H]; try (solve [cbn in Hn; repeat (destruct Hn as [<-|Hn]; [other H|]); destruct Hn]).
  inversion H as [n0 c0 v0 H1 Hu Hv]; subst. rewrite <- !app_assoc. apply named_without.
  - intros X. destruct H1 as [_ H1]. unfold chars in H1. rewrite Forall_forall in H1. apply H1 in X. apply ftext_spec in X. discriminate.
  - cbn in Hn. repeat (destruct Hn as [<-|Hn]; [no_colon|]). destruct Hn.
  - apply Hu. cbn in Hn. repeat (destruct Hn as [<-|Hn]; [in_known Ht|]). destruct Hn.
Qed.
Lemma clear_resent_starts : forall m b EW c f i, clear_resent m b EW c f -> starts_header (c ++ i).
Proof. intros m b EW c f i H. destruct H as [c v H|c v H|c v H|c v H|c v H|c v H|c v H]; hstarts H. Qed.
Lemma clear_resent_without : forall m b EW c f i name, clear_resent m b EW c f -> In name ["Return-Path"; "Received"]%string -> without name (c ++ i).
Proof. intros m b EW c f i name H Hn. cbn in Hn. destruct H as [c v H|c v H|c v H|c v H|c v H|c v H|c v H]; repeat (destruct Hn as [<-|Hn]; [other H|]); destruct Hn. Qed.

(* ---- lists of headers ---- *)
Lemma headers_steps : forall A B (P : bytes -> A -> Prop) (p : parser B) (R : A -> B -> Prop) i,
  (forall c a j, P c a -> ends is_wsp j -> exists b, p (c ++ j) = Ok (j, b) /\ R a b) -> (forall c a j, P c a -> starts_header (c ++ j)) ->
  ends is_wsp i -> (exists e, p i = Err e) ->
  forall c l, many_of P c l -> exists l', steps p (c ++ i) l' i /\ Forall2 R l l'.
Proof.
  intros A B P p R i Hp Hs Hi [e He] c l H. induction H as [|c a cs l Ha Hcs (l' & IH & IR)].
  - exists []. split; [eapply steps_stop; exact He|constructor].
  - assert (W : ends is_wsp (cs ++ i)). { destruct Hcs as [|c2 a2 cs2 l2 H2 _]; [exact Hi|]. rewrite <- app_assoc. apply starts_header_wsp. eapply Hs; eauto. }
    destruct (Hp c a (cs ++ i) Ha W) as (b & Hb & Rb). exists (b :: l'). split; [|now constructor]. rewrite <- app_assoc. eapply steps_more; [exact Hb| |exact IH].
    apply starts_header_nonempty; [|intros j]; eapply Hs; eauto.
Qed.
Lemma headers_start : forall A (P : bytes -> A -> Prop) i, (forall c a j, P c a -> starts_header (c ++ j)) -> ends is_wsp i -> forall c l, many_of P c l -> ends is_wsp (c ++ i).
Proof. intros A P i Hs Hi c l [|c2 a2 cs2 l2 H2 _]; [exact Hi|]. rewrite <- app_assoc. apply starts_header_wsp. eapply Hs; eauto. Qed.
Lemma forall2_eq : forall A (l l' : list A), Forall2 eq l l' -> l = l'.
Proof. intros A l l' H. induction H; congruence. Qed.

(* ---- trace blocks ---- *)
Lemma received_header_forward : forall E c v i, rfc_header "Received" (tidily (clear_received (f_compatibility_fixes E))) c v -> ends is_wsp i -> received E (c ++ i) = Ok (i, v).
Proof.
  intros E c v i H Hi. eapply header_forward with (name := "Received"%string); [reflexivity|reflexivity|exact H|]. intros c' v' [Hv Ht]. apply received_forward; auto. now apply tidy_follows.
Qed.
Lemma return_path_forward : forall E c v i, rfc_header "Return-Path" (tidily (rfc_path (f_compatibility_fixes E))) c v -> ends is_wsp i -> return_path E (c ++ i) = Ok (i, v).
Proof.
  intros E c v i H Hi. eapply header_forward with (name := "Return-Path"%string); [reflexivity|reflexivity|exact H|]. intros c' v' [Hv Ht]. apply path_forward; auto. now apply tidy_follows.
Qed.
Lemma received_starts : forall b c v i, rfc_header "Received" (tidily (clear_received b)) c v -> starts_header (c ++ i).
Proof. intros b c v i H. hstarts H. Qed.
Lemma block_until : forall E c p r l i, clear_block E c (FTrace p r l) -> ends is_wsp i -> (exists e, resent_field E i = Err e) -> (l = [] -> exists e, received E i = Err e) ->
  trace_block E (c ++ i) = Ok (i, FTrace p r l).
Proof.
  intros E c p r l i H Hi Hr Hl. inversion H as [c1 p' c2 r' c3 l' H1 Hne H2 H3]; subst. rewrite <- !app_assoc.
  assert (W3 : ends is_wsp (c3 ++ i)) by (eapply headers_start; [|exact Hi|exact H3]; intros; eapply clear_resent_starts; eauto).
  assert (N3 : exists e, received E (c3 ++ i) = Err e). { destruct H3 as [|c4 a4 cs4 l4 H4 _]; [now apply Hl|]. apply received_none. rewrite <- app_assoc. eapply clear_resent_without; eauto. in_list. }
  assert (W2 : ends is_wsp (c2 ++ c3 ++ i)) by (eapply headers_start; [|exact W3|exact H2]; intros; eapply received_starts; eauto).
  destruct (headers_steps _ _ (rfc_header "Received" (tidily (clear_received (f_compatibility_fixes E)))) (received E) eq (c3 ++ i)) with (c := c2) (l := r) as (r' & S2 & E2);
    [intros c0 a j Ha Hj; exists a; split; [now apply received_header_forward|reflexivity]|intros; eapply received_starts; eauto|exact W3|exact N3|exact H2|].
  apply forall2_eq in E2. subst r'.
  destruct (headers_steps _ _ (clear_resent (f_mime E) (f_compatibility_fixes E) (encoded E)) (resent_field E) eq i) with (c := c3) (l := l) as (l' & S3 & E3);
    [intros c0 a j Ha Hj; exists a; split; [now apply resent_field_forward|reflexivity]|intros; eapply clear_resent_starts; eauto|exact Hi|exact Hr|exact H3|].
  apply forall2_eq in E3. subst l'.
  unfold trace_block, trace. destruct H1 as [|c1 q H1].
  - cbn [app]. assert (N : without "Return-Path" (c2 ++ c3 ++ i)). { destruct H2 as [|c4 a4 cs4 l4 H4 _]; [congruence|]. rewrite <- app_assoc. other H4. }
    unfold optional. destruct (return_path_none E _ N) as [e ->]. cbn [attempt bind]. rewrite (many1_steps _ _ _ _ _ S2) by auto. cbn [bind]. rewrite (many_steps _ _ _ _ _ S3). reflexivity.
  - unfold optional. rewrite (return_path_forward E c1 q) by auto. cbn [attempt bind]. rewrite (many1_steps _ _ _ _ _ S2) by auto. cbn [bind]. rewrite (many_steps _ _ _ _ _ S3). reflexivity.
Qed.
Lemma block_forward : forall E c p r l i, clear_block E c (FTrace p r l) -> ends is_wsp i -> no_resent i -> (l = [] -> without "Received" i) ->
  trace_block E (c ++ i) = Ok (i, FTrace p r l).
Proof. intros E c p r l i H Hi Hr Hl. apply block_until; auto; [now apply resent_none|]. intros L. apply received_none. auto. Qed.
Lemma block_shape : forall E c f i, clear_block E c f -> starts_header (c ++ i) /\ no_resent (c ++ i) /\ exists p r l, f = FTrace p r l /\ (p <> None -> without "Received" (c ++ i)).
Proof.
  intros E c f i [c1 p c2 r c3 l H1 Hne H2 H3]. rewrite <- !app_assoc. destruct H2 as [|c4 a4 cs4 l4 H4 H5]; [congruence|]. rewrite <- app_assoc. destruct H1 as [|c1 q H1].
  - cbn [app]. split; [hstarts H4|]. split; [|exists None, (a4 :: l4), l; split; [auto|congruence]]. intros name Hn. cbn in Hn. repeat (destruct Hn as [<-|Hn]; [other H4|]). destruct Hn.
  - split; [hstarts H1|]. split; [intros name Hn; cbn in Hn; repeat (destruct Hn as [<-|Hn]; [other H1|]); destruct Hn|]. exists (Some q), (a4 :: l4), l. split; auto. intros _. other H1.
Qed.
Lemma block_none : forall E i, no_trace i -> exists e, trace_block E i = Err e.
Proof.
  intros E i H. unfold trace_block, trace, optional. destruct (return_path_none E i) as [e ->]; [apply H; in_list|]. cbn [attempt bind]. unfold many1.
  destruct (received_none E i) as [e' ->]; [apply H; in_list|]. cbn. eauto.
Qed.
Lemma blocks_until : forall E c fs, clear_blocks E c fs -> forall i, ends is_wsp i ->
  (exists e, trace_block E i = Err e) -> (exists e, resent_field E i = Err e) -> (exists e, received E i = Err e) -> steps (trace_block E) (c ++ i) fs i.
Proof.
  intros E c fs H. induction H as [|c f cs fs Hb Hs Hbs IH]; intros i Hi Ht Hr Hv.
  - destruct Ht as [e He]. eapply steps_stop. exact He.
  - rewrite <- app_assoc. eapply steps_more; [| |exact (IH i Hi Ht Hr Hv)].
    + destruct (block_shape E c f [] Hb) as (_ & _ & p & r & l & -> & _). apply block_until; auto.
      * destruct Hbs as [|c2 f2 cs2 fs2 H2 _ _]; [exact Hi|]. rewrite <- app_assoc. apply starts_header_wsp. now apply (block_shape E c2 f2 (cs2 ++ i) H2).
      * destruct Hbs as [|c2 f2 cs2 fs2 H2 _ _]; [exact Hr|]. apply resent_none. rewrite <- app_assoc. now apply (block_shape E c2 f2 (cs2 ++ i) H2).
      * intros ->. destruct Hbs as [|c2 f2 cs2 fs2 H2 _ _]; [exact Hv|]. apply received_none. rewrite <- app_assoc. destruct (block_shape E c2 f2 (cs2 ++ i) H2) as (_ & _ & p2 & r2 & l2 & -> & W).
        apply W. cbn in Hs. destruct Hs; congruence.
    + apply starts_header_nonempty; [|intros j]; eapply block_shape; eauto.
Qed.
Lemma blocks_steps : forall E c fs, clear_blocks E c fs -> forall i, ends is_wsp i -> no_trace i -> steps (trace_block E) (c ++ i) fs i.
Proof.
  intros E c fs H i Hi Ht. apply blocks_until; auto; [now apply block_none| |].
  - apply resent_none. intros name Hn. apply Ht. cbn. tauto.
  - apply received_none. apply Ht. in_list.
Qed.

(* ---- messages ---- *)
Lemma fields_forward : forall E c1 t c2 l i, (forall x, Permutation (hash_order E x) x) -> clear_blocks E c1 t -> (f_trace E = true \/ t = []) -> many_of (clear_field E) c2 l -> bare i ->
  exists l', fields E (c1 ++ c2 ++ i) = Ok (i, t ++ l') /\ Forall2 same_field l l'.
Proof.
  intros E c1 t c2 l i HE H1 Ht H2 Hi. assert (W : ends is_wsp (c2 ++ i)) by (eapply headers_start; [|now apply bare_wsp|exact H2]; intros; eapply clear_field_starts; eauto).
  destruct (headers_steps _ _ (clear_field E) (any_field E) same_field i) with (c := c2) (l := l) as (l' & S & R);
    [intros c0 a j Ha Hj; now apply any_field_forward|intros; eapply clear_field_starts; eauto|now apply bare_wsp|now apply any_field_bare|exact H2|].
  exists l'. split; auto. unfold fields. destruct (f_trace E) eqn:T.
  - assert (N : no_trace (c2 ++ i)). { destruct H2 as [|c3 a3 cs3 l3 H3 _]; [now apply bare_no_trace|]. rewrite <- app_assoc. eapply clear_field_no_trace; eauto. }
    rewrite (many_steps _ _ _ _ _ (blocks_steps E c1 t H1 (c2 ++ i) W N)). cbn [bind]. rewrite (many_steps _ _ _ _ _ S). reflexivity.
  - destruct Ht as [Ht| ->]; [discriminate|]. inversion H1; subst. cbn [app bind]. rewrite (many_steps _ _ _ _ _ S). reflexivity.
Qed.
Lemma same_field_list_refl : forall l, Forall2 same_field l l.
Proof. induction l; constructor; auto. constructor. Qed.

(* Proofs for C57. *)
From Coq Require Import Lia ZifyBool ZifyNat ZifyN.
From Verif Require Import SafetyProofs Base Utf8 CharSets Combinators Whitespace QuotedString EncodedWord Common Time Address Percent MimeFields Fields Message Entity Email Envs
  Rfc5322 Rfc2047 Post CodecSpec RfcFields SoundBase SoundTime SoundAddr TagNoCase ParamProofs SoundFields EmailSpec SoundMessage EmailProofs MessageFacts Steps Complete CompleteFields Forward ForwardText ForwardAddr
  ForwardList ForwardTime ForwardMime ForwardParams ForwardParts ForwardMimeFields ForwardFields ForwardMessage HeaderFacts LocalSpec Local LocalFacts KeptFacts Writers WriteFacts WriteAddr RegularSpec RegularFacts NeatFacts TidyFacts
  TraceFacts RangeFacts LinedFacts LessFacts LineSpec LineFacts LessExact KeenFacts PercentProofs ExactSpec RangeWrite ExactFacts MimeExactSpec MimeExactParts MimeExactBack MimeExactHeads PhraseSpec PhraseFacts PhraseBox PhraseHeads MimeExactFields
  Base64 QuotedPrintable Charset MultipartSpec EntitySpec CutSpec PartExactSpec RefuseSpec CodecArith Base64Proofs GrammarFacts MimeExactFacts DebugSpec DebugFacts DebugPanic DebugMore.
Local Open Scope N_scope.

(* ---- the faults of base64 data ---- *)
Section Base64Fault.
Lemma fault0 : forall l, b64_fault G0 (symbols l) =
  match find_stop get_value_encoded l with Some (s, x, v, r) => b64_fault (G1 v) (symbols r) | None => None end.
Proof.
  induction l as [|c l IH]; [reflexivity|]. rewrite symbols_cons. cbn [find_stop]. destruct (get_value_encoded c) as [v|]; [reflexivity|].
  destruct (c =? 61); cbn [b64_fault]; rewrite IH; destruct (find_stop get_value_encoded l) as [[[[s x] v] r]|]; reflexivity.
Qed.
Lemma fault1 : forall a l, b64_fault (G1 a) (symbols l) =
  match find_stop get_value_encoded l with Some (s, x, v, r) => b64_fault (G2 a v) (symbols r) | None => Some "Missing at least 3 bytes"%string end.
Proof.
  induction l as [|c l IH]; [reflexivity|]. rewrite symbols_cons. cbn [find_stop]. destruct (get_value_encoded c) as [v|]; [reflexivity|].
  destruct (c =? 61); cbn [b64_fault]; rewrite IH; destruct (find_stop get_value_encoded l) as [[[[s x] v] r]|]; reflexivity.
Qed.
Lemma fault2 : forall a b l, b64_fault (G2 a b) (symbols l) =
  match find_stop stop3 l with
  | Some (s, x, Some v, r) => b64_fault (G3 a b v) (symbols r)
  | Some (s, x, None, r) => b64_fault (G3Pad a b) (symbols r)
  | None => Some "Missing at least 2 bytes"%string
  end.
Proof.
  induction l as [|c l IH]; [reflexivity|]. rewrite symbols_cons. cbn [find_stop]. unfold stop3 at 1.
  destruct (get_value_encoded c) as [v|] eqn:Hv; [rewrite (get_value_not_pad _ _ Hv); reflexivity|].
  destruct (c =? 61); cbn [b64_fault]; [reflexivity|]. rewrite IH. destruct (find_stop stop3 l) as [[[[s x] [v|]] r]|]; reflexivity.
Qed.
Lemma fault3 : forall a b o l, b64_fault (match o with Some c => G3 a b c | None => G3Pad a b end) (symbols l) =
  match find_stop (stop4 o) l with
  | Some (s, x, Ok _, r) => b64_fault G0 (symbols r)
  | Some (s, x, _, r) => Some "Data after end of data"%string
  | None => Some "Missing at least 1 byte"%string
  end.
Proof.
  induction l as [|x l IH]; [destruct o; reflexivity|]. rewrite symbols_cons. cbn [find_stop]. unfold stop4 at 1.
  destruct (get_value_encoded x) as [v|] eqn:Hv; [rewrite (get_value_not_pad _ _ Hv); destruct o; reflexivity|].
  destruct (x =? 61); [destruct o; reflexivity|]. rewrite IH. destruct (find_stop (stop4 o) l) as [[[[s y] [[v|]|e|k]] r]|]; reflexivity.
Qed.
Lemma fault_end : forall E n todo out junk w, (length todo < n)%nat -> b64_fault G0 (symbols todo) = Some w ->
  decode_base64_loop E n (out ++ junk ++ todo) (length out + length junk) (length junk) = Err (Unknown w).
Proof.
  intros E. induction n as [|n IH]; intros todo out junk w Hn HF; [lia|].
  cbn [decode_base64_loop]. rewrite fault0 in HF.
  set (data := out ++ junk ++ todo). assert (Hlen : (length data = length out + length junk + length todo)%nat).
  { unfold data. rewrite !app_length. lia. }
  set (fuel := S (length data)).
  replace data with ((out ++ junk) ++ todo) at 1 by (unfold data; now rewrite app_assoc).
  rewrite scan_spec by (rewrite ?app_length; unfold fuel; lia).
  destruct (find_stop get_value_encoded todo) as [[[[s0 x0] v0] r0]|] eqn:F0; cbn [bind]; [|discriminate].
  pose proof (find_stop_app _ _ _ _ _ _ _ F0) as T0. pose proof (get_value_lt _ _ (find_stop_inv _ _ _ _ _ _ _ F0)) as B0.
  rewrite fault1 in HF.
  replace data with ((out ++ junk ++ s0 ++ [x0]) ++ r0) at 1 by (unfold data; rewrite T0, <- !app_assoc; reflexivity).
  rewrite scan_spec by (subst todo; rewrite ?app_length in *; cbn [length] in *; unfold fuel; lia).
  destruct (find_stop get_value_encoded r0) as [[[[s1 x1] v1] r1]|] eqn:F1; cbn [bind]; [|injection HF as <-; reflexivity].
  pose proof (find_stop_app _ _ _ _ _ _ _ F1) as T1. pose proof (get_value_lt _ _ (find_stop_inv _ _ _ _ _ _ _ F1)) as B1.
  rewrite fault2 in HF.
  replace data with ((out ++ junk ++ s0 ++ [x0] ++ s1 ++ [x1]) ++ r1) at 1 by (unfold data; rewrite T0, T1, <- !app_assoc; reflexivity).
  rewrite scan_spec by (subst todo r0; rewrite ?app_length in *; cbn [length] in *; rewrite ?app_length in *; cbn [length] in *; unfold fuel; lia).
  destruct (find_stop stop3 r1) as [[[[s2 x2] v2] r2]|] eqn:F2; cbn [bind]; [|injection HF as <-; reflexivity].
  pose proof (find_stop_app _ _ _ _ _ _ _ F2) as T2.
  assert (B2 : forall v, v2 = Some v -> v < 64).
  { intros v ->. apply find_stop_inv in F2. unfold stop3 in F2. destruct (x2 =? 61); [discriminate|].
    destruct (get_value_encoded x2) eqn:G; [|discriminate]. inversion F2; subst. eapply get_value_lt; eauto. }
  replace data with ((out ++ junk ++ s0 ++ [x0] ++ s1 ++ [x1] ++ s2 ++ [x2]) ++ r2) at 1 by (unfold data; rewrite T0, T1, T2, <- !app_assoc; reflexivity).
  rewrite scan_spec by (subst todo r0 r1; rewrite ?app_length in *; cbn [length] in *; rewrite ?app_length in *; cbn [length] in *; rewrite ?app_length in *; cbn [length] in *; unfold fuel; lia).
  assert (HF' : b64_fault (match v2 with Some c => G3 v0 v1 c | None => G3Pad v0 v1 end) (symbols r2) = Some w) by (destruct v2; exact HF).
  clear HF. rename HF' into HF. rewrite fault3 in HF.
  destruct (find_stop (stop4 v2) r2) as [[[[s3 x3] v3] r3]|] eqn:F3; cbn [bind]; [|injection HF as <-; reflexivity].
  pose proof (find_stop_app _ _ _ _ _ _ _ F3) as T3.
  assert (B3 : match v3 with Ok (Some v) => v < 64 | Crash _ => False | Err e => e = Unknown "Data after end of data" | Ok None => True end).
  { apply find_stop_inv in F3. unfold stop4 in F3. destruct (x3 =? 61); [inversion F3; exact I|].
    destruct (get_value_encoded x3) eqn:G; [|discriminate]. destruct v2; inversion F3; [|reflexivity]. eapply get_value_lt; eauto. }
  destruct v3 as [v3|e|k]; cbn [bind]; [|subst e; injection HF as <-; reflexivity|contradiction].
  assert (Hd : data = out ++ (junk ++ s0 ++ [x0] ++ s1 ++ [x1] ++ s2 ++ [x2] ++ s3 ++ [x3]) ++ r3).
  { unfold data. rewrite T0, T1, T2, T3. repeat (rewrite <- ?app_assoc; cbn [app]). reflexivity. }
  set (W := junk ++ s0 ++ [x0] ++ s1 ++ [x1] ++ s2 ++ [x2] ++ s3 ++ [x3]) in Hd.
  assert (HW : (length W = length junk + length s0 + length s1 + length s2 + length s3 + 4)%nat).
  { unfold W. rewrite !app_length. cbn [length]. lia. }
  assert (Hr3 : (length r3 < n)%nat).
  { rewrite T0, T1, T2, T3 in Hn. rewrite ?app_length in Hn. cbn [length] in Hn. rewrite ?app_length in Hn. cbn [length] in Hn.
    rewrite ?app_length in Hn. cbn [length] in Hn. rewrite ?app_length in Hn. cbn [length] in Hn. lia. }
  destruct W as [|y1 [|y2 [|y3 [|y4 W]]]]; cbn [length] in HW; try lia.
  clearbody data. subst data. clear F0 F1 F2 F3 T0 T1 T2 T3 Hlen.
  rewrite usize_sub_ok by lia. cbn [bind]. rewrite octet1_code by auto. cbn [bind].
  match goal with |- context [unchecked_set _ ?p _] => replace p with (length out) by lia end.
  cbn [app]. rewrite unchecked_set_at. cbn [bind].
  destruct v2 as [v2|].
  - specialize (B2 v2 eq_refl). rewrite usize_sub_ok by lia. cbn [bind].
    rewrite (octet2_code E v0 v1 v2) by auto. cbn [bind].
    match goal with |- context [unchecked_set _ ?p _] => replace p with (length (out ++ [octet1 v0 v1])) by (rewrite app_length; cbn; lia) end.
    replace (out ++ octet1 v0 v1 :: y2 :: y3 :: y4 :: W ++ r3) with ((out ++ [octet1 v0 v1]) ++ y2 :: y3 :: y4 :: W ++ r3) by (rewrite <- app_assoc; reflexivity).
    rewrite unchecked_set_at. cbn [bind].
    destruct v3 as [v3|].
    + rewrite usize_sub_ok by lia. cbn [bind]. rewrite (octet3_code E v0 v1 v2 v3) by auto. cbn [bind].
      match goal with |- context [unchecked_set _ ?p _] => replace p with (length (out ++ [octet1 v0 v1; octet2 v0 v1 v2])) by (rewrite app_length; cbn; lia) end.
      rewrite <- app_assoc. cbn [app].
      replace (out ++ octet1 v0 v1 :: octet2 v0 v1 v2 :: y3 :: y4 :: W ++ r3) with ((out ++ [octet1 v0 v1; octet2 v0 v1 v2]) ++ y3 :: y4 :: W ++ r3) by (rewrite <- app_assoc; reflexivity).
      rewrite unchecked_set_at. cbn [bind].
      specialize (IH r3 (out ++ [octet1 v0 v1; octet2 v0 v1 v2; octet3 v0 v1 v2 v3]) (y4 :: W) w Hr3 HF).
      rewrite <- !app_assoc in IH. cbn [app] in IH. rewrite app_length in IH. cbn [length] in IH.
      rewrite <- !app_assoc. cbn [app].
      match goal with H : decode_base64_loop _ _ _ ?a ?b = _ |- decode_base64_loop _ _ _ ?c ?d = _ =>
        replace c with a by lia; replace d with b by lia; exact H end.
    + cbn [bind].
      specialize (IH r3 (out ++ [octet1 v0 v1; octet2 v0 v1 v2]) (y3 :: y4 :: W) w Hr3 HF).
      rewrite <- !app_assoc in IH. cbn [app] in IH. rewrite app_length in IH. cbn [length] in IH.
      rewrite <- !app_assoc. cbn [app].
      match goal with H : decode_base64_loop _ _ _ ?a ?b = _ |- decode_base64_loop _ _ _ ?c ?d = _ =>
        replace c with a by lia; replace d with b by lia; exact H end.
  - cbn [bind].
    specialize (IH r3 (out ++ [octet1 v0 v1]) (y2 :: y3 :: y4 :: W) w Hr3 HF).
    rewrite <- !app_assoc in IH. cbn [app] in IH. rewrite app_length in IH. cbn [length] in IH.
    match goal with H : decode_base64_loop _ _ _ ?a ?b = _ |- decode_base64_loop _ _ _ ?c ?d = _ =>
        replace c with a by lia; replace d with b by lia; exact H end.
Qed.
Lemma fault_or_groups : forall l s, (exists v, b64_groups s l = Some v) /\ b64_fault s l = None \/ b64_groups s l = None /\ exists w, b64_fault s l = Some w.
Proof.
  induction l as [|x l IH]; intros s.
  - destruct s; cbn; eauto.
  - destruct s; destruct x as [u|]; cbn [b64_groups b64_fault]; eauto;
      match goal with |- context [option_map (app ?p) (b64_groups ?s l)] => destruct (IH s) as [[[y ->] ->]|[-> [y ->]]]; cbn; eauto end.
Qed.
End Base64Fault.
Theorem base64_faults : forall E data w, decode_base64 E data = Err (Unknown w) <-> b64_fault G0 (symbols data) = Some w.
Proof.
  intros E data w. assert (F : forall w, b64_fault G0 (symbols data) = Some w -> decode_base64 E data = Err (Unknown w)).
  { intros w' H. exact (fault_end E (S (length data)) data [] [] w' ltac:(lia) H). }
  split; [|apply F]. intros H. destruct (fault_or_groups (symbols data) G0) as [[[v G] _]|[_ [w' X]]].
  - pose proof (decode_base64_spec E data) as S. unfold b64_decoding in S. rewrite G in S. congruence.
  - rewrite X. pose proof (F w' X). congruence.
Qed.
Lemma content_faults : forall E b e w, decode_value E b e = Err (Unknown w) <-> content_fault e b = Some w.
Proof.
  intros E b e w. destruct e; cbn [decode_value content_fault]; try (split; discriminate).
  - split; [|discriminate]. intros H. pose proof (decode_value_spec E b QuotedPrintableEnc) as D. cbn [decode_value] in D. rewrite H in D. destruct D as [_ D]. exfalso. eapply D. constructor.
  - apply base64_faults.
  - split; intros X; now inversion X.
Qed.

(* ---- how messages are read ---- *)
Lemma headers_exact : forall E d fs b, env_ok E -> f_mime E = false -> (exists c3, fields E d = Ok (c3, fs) /\ rest_text c3 b) <-> headers_read E d fs b.
Proof.
  intros E d fs b HE HM. split.
  - intros (c3 & H & Hr). pose proof (rest_bare _ _ Hr) as Hb. rewrite fields_parts in H. destruct (trace_part E d) as [[i t]|e|k] eqn:T; cbn [bind] in H; try discriminate.
    destruct (many (any_field E) i) as [[r l]|e|k] eqn:M; cbn [bind] in H; try discriminate. injection H as -> <-. apply many_inv in M; [|exact (progress_any_field E HE)].
    assert (N3 : no_blank c3) by (now apply ends_no_blank, bare_wsp).
    destruct (steps_texts_of _ _ _ (fun j r a => read_inv E j r a HE HM) (fun j r a => ExactFacts.any_field_on E j r a HE) _ _ _ M N3) as (c2 & -> & H2 & _).
    pose proof (ends_no_blank _ (reads_start E c2 l c3 H2 Hb)) as W. unfold trace_part in T. destruct (f_trace E) eqn:F.
    + apply many_inv in T; [|exact (progress_block E F)]. destruct (blocks_inv E _ _ _ HM T W) as (c1 & -> & H1 & He & Hz). apply headers_read_intro; auto; [congruence| |].
      * intros _ B. destruct He as [e He]. exact (begins_block E _ e B He).
      * intros Ht (c & a & r & Ha & X & Hn). destruct (Hz Ht) as [e He2]. rewrite X in He2. rewrite (resent_field_forward E c a r Ha (new_line_ends _ Hn)) in He2. discriminate.
    + injection T as -> <-. apply (headers_read_intro E [] [] c2 l c3 b); auto; [apply clear_blocks_nil|congruence].
  - intros H. destruct H as [c1 t c2 l c3 b H1 Ht HS HR H2 H3]. pose proof (rest_bare _ _ H3) as Hb. exists c3. split; [|exact H3].
    pose proof (reads_start E c2 l c3 H2 Hb) as W.
    destruct (headers_steps _ _ (field_read E) (any_field E) eq c3) with (c := c2) (l := l) as (l' & S & R);
      [intros c0 a j Ha Hj; exists a; split; [now apply ExactFacts.read_forward|reflexivity]|intros; eapply field_read_starts; eauto|now apply bare_wsp|now apply any_field_bare|exact H2|].
    apply forall2_eq in R. subst l'. rewrite fields_parts. assert (T : trace_part E (c1 ++ c2 ++ c3) = Ok (c2 ++ c3, t)).
    { unfold trace_part. destruct (f_trace E) eqn:F.
      - apply many_steps. specialize (HS eq_refl). pose proof (no_start_block E c2 l c3 F H2 Hb HS) as B. destruct t as [|f t].
        + inversion H1; subst. cbn [app]. destruct B as [e B]. eapply steps_stop; exact B.
        + apply blocks_until; auto; [apply (no_start_resent E c2 l c3 F HM H2 Hb); apply HR; discriminate|now apply (no_start_received E c2 l c3)].
      - rewrite (Ht eq_refl) in *. inversion H1; subst. reflexivity. }
    rewrite T. cbn [bind]. rewrite (many_steps _ _ _ _ _ S). reflexivity.
Qed.
Lemma message_read_headers : forall E d fs b, message_read E d fs b <-> headers_read E d fs b /\ forall x, b = Some x -> body_text x.
Proof.
  intros E d fs b. split.
  - intros [c1 t c2 l c3 b' H1 H2 H3 H4 H5 H6 H7]. split; [now constructor|exact H7].
  - intros [[c1 t c2 l c3 b' H1 H2 H3 H4 H5 H6] H7]. now constructor.
Qed.

Section Build.
Variable E : env.
Hypothesis HE : env_ok E.
Hypothesis HD : debug E = false \/ f_mime E = false.
Lemma with_mime_release : f_mime E = true -> debug E = false.
Proof. intros M. destruct HD as [X|X]; [exact X|congruence]. Qed.

Lemma fields_reads : forall d c3 fs b, fields E d = Ok (c3, fs) -> rest_text c3 b -> reads E d fs b.
Proof.
  intros d c3 fs b H R. unfold reads. case_eq (f_mime E); intros M.
  - apply (mime_message_back E HE M (with_mime_release M)). apply message_ok. exists c3. split; [exact H|]. split; [eapply rest_bare; eauto|]. split; [exact R|congruence].
  - apply headers_exact; eauto.
Qed.
Lemma reads_fields : forall d fs b, reads E d fs b -> exists c3 fs', fields E d = Ok (c3, fs') /\ rest_text c3 b /\ Forall2 same_field fs fs'.
Proof.
  intros d fs b. unfold reads. case_eq (f_mime E); intros M.
  - intros H. destruct (mime_message_forward E HE M (with_mime_release M) d fs b H) as (fs' & P & F). apply message_ok in P as (c3 & P & _ & R & _). eauto 6.
  - intros H. apply (headers_exact E d fs b HE M) in H as (c3 & H & R). exists c3, fs. split; [exact H|]. split; [exact R|]. apply same_field_list_refl.
Qed.
Lemma reads_message : forall d fs b, reads E d fs b -> good_body E b -> exists fs', parse_message E d = Ok (fs', b) /\ Forall2 same_field fs fs'.
Proof.
  intros d fs b H G. destruct (reads_fields d fs b H) as (c3 & fs' & P & R & F). exists fs'. split; [|exact F]. apply message_ok. exists c3. split; [exact P|]. split; [eapply rest_bare; eauto|]. auto.
Qed.
Lemma message_reads : forall d fs b, parse_message E d = Ok (fs, b) -> reads E d fs b /\ good_body E b.
Proof. intros d fs b H. apply message_ok in H as (c3 & H & _ & R & G). split; [eapply fields_reads; eauto|exact G]. Qed.

(* the errors of parse_message *)
Definition no_headers : error := Explicit "TAG ERROR: Headers must be followed by a CRLF sequence.".
Definition no_body : error := Explicit "TAG ERROR: In a body, a line must end with a CRLF sequence.".
Lemma no_overflow : forall k, mime_overflow E k -> False.
Proof. intros k [H [H' _]]. destruct HD; congruence. Qed.
Lemma fields_total : forall d, exists c3 fs, fields E d = Ok (c3, fs).
Proof.
  intros d. pose proof (sound_fields_env E d HE) as H. pose proof (fields_no_err E d) as N. destruct (fields E d) as [[r fs]|e|k]; [eauto|exfalso; eapply N; eauto|]. exfalso.
  exact (no_overflow k H).
Qed.
Lemma message_refused : forall d err, parse_message E d = Err err <->
  err = no_headers /\ (forall fs b, ~ reads E d fs b) \/ err = no_body /\ f_mime E = false /\ exists fs b, reads E d fs (Some b) /\ ~ body_text b.
Proof.
  intros d err. destruct (fields_total d) as (c3 & fs & F).
  assert (R : forall fs' b, reads E d fs' b -> rest_text c3 b). { intros fs' b H. destruct (reads_fields d fs' b H) as (c3' & fs2 & F' & R & _). rewrite F in F'. inversion F'; now subst. }
  assert (P : parse_message E d = let* b := (if f_mime E then mime_body c3 else body c3) in Ok (fs, b)) by (unfold parse_message; now rewrite F).
  rewrite P. clear P. case_eq (f_mime E); intros M.
  - pose proof (mime_body_outcome c3) as O. destruct (mime_body c3) as [[x|]|e|k]; cbn [bind]; [..|contradiction].
    + split; [discriminate|]. intros [[_ N]|(_ & X & _)]; [|discriminate]. exfalso. apply (N fs (Some x)). subst c3. eapply fields_reads; [exact F|constructor].
    + split; [discriminate|]. intros [[_ N]|(_ & X & _)]; [|discriminate]. exfalso. apply (N fs None). subst c3. eapply fields_reads; [exact F|constructor].
    + destruct O as (-> & O1 & O2). split.
      * intros [= <-]. left. split; [reflexivity|]. intros fs' b H. apply R in H. inversion H; subst; [congruence|]. rewrite starts_with_app in O2. discriminate.
      * intros [[-> _]|(_ & X & _)]; [reflexivity|discriminate].
  - pose proof (body_outcome c3) as O. destruct (body c3) as [[x|]|e|k]; cbn [bind]; [..|contradiction].
    + split; [discriminate|]. destruct O as [-> O]. intros [[_ N]|(_ & _ & fs' & b & H & N)].
      * exfalso. apply (N fs (Some x)). eapply fields_reads; [exact F|constructor].
      * exfalso. apply R in H. inversion H; subst. now apply N.
    + subst c3. split; [discriminate|]. intros [[_ N]|(_ & _ & fs' & b & H & N)].
      * exfalso. apply (N fs None). eapply fields_reads; [exact F|constructor].
      * exfalso. apply R in H. inversion H.
    + destruct O as [(-> & O1 & O2)|(-> & b & -> & O)]; split.
      * intros [= <-]. left. split; [reflexivity|]. intros fs' b H. apply R in H. inversion H; subst; [congruence|]. rewrite starts_with_app in O2. discriminate.
      * intros [[-> _]|(_ & _ & fs' & b & H & N)]; [reflexivity|]. apply R in H. inversion H; subst. rewrite starts_with_app in O2. discriminate.
      * intros [= <-]. right. split; [reflexivity|]. split; [reflexivity|]. exists fs, b. split; [|exact O]. eapply fields_reads; [exact F|constructor].
      * intros [[_ N]|(-> & _)]; [|reflexivity]. exfalso. apply (N fs (Some b)). eapply fields_reads; [exact F|constructor].
Qed.

(* ---- mails ---- *)
Lemma unknown_content : forall fs b w, (let* a := set_fields acc0 fs in finish E a b) = Err (Unknown w) ->
  exists t, b = Some t /\ content_fault (encoding_of (only is_cte fs)) t = Some w.
Proof.
  intros fs b w H. destruct (set_fields_spec fs []) as [[Hu Hs]|(n & Hn & Hs)]; [constructor| |].
  2: { change acc0 with (acc_of []) in H. rewrite Hs in H. discriminate. }
  change acc0 with (acc_of []) in H. rewrite Hs in H. cbn [bind app] in H. unfold finish in H.
  assert (O : forall A (o : option A) n k, ok_or o (MissingHeader n) <> Err (Unknown k)) by (intros A [a|] n k; discriminate).
  match type of H with bind ?x _ = _ => destruct x as [fr|e1|k1] eqn:X1; cbn [bind] in H; [|injection H as ->; destruct (f_from E); [now apply O in X1|discriminate]|discriminate] end.
  match type of H with bind ?x _ = _ => destruct x as [da|e1|k1] eqn:X2; cbn [bind] in H; [|injection H as ->|discriminate] end.
  2: { destruct (f_date E); [|discriminate]. destruct (v_date (acc_of fs)); discriminate. }
  match type of H with bind ?x _ = _ => destruct x as [se|e1|k1] eqn:X3; cbn [bind] in H; [|injection H as ->|discriminate] end.
  2: { change (v_sender (acc_of fs)) with (only is_sender fs) in X3. destruct (sender_step (f_sender E) (only is_sender fs) fr) as [(s & Y & _)|(Y & _)]; rewrite Y in X3; discriminate. }
  match type of H with bind ?x _ = _ => change x with (mime_step E (acc_of fs) b) in H; destruct (mime_step E (acc_of fs) b) as [r|e1|k1] eqn:X4; cbn [bind] in H; [discriminate|injection H as ->|discriminate] end.
  unfold mime_step in X4. destruct (f_mime E); [|discriminate].
  change (match v_cte (acc_of fs) with Some e => e | None => SevenBit end) with (encoding_of (only is_cte fs)) in X4.
  destruct (match v_content_type (acc_of fs) with Some x => x | None => default_content_type end) as [[t s] p]. destruct b as [b|]; cbn [bind] in X4; [|discriminate].
  exists b. split; [reflexivity|]. apply (content_faults E). destruct (decode_value E b (encoding_of (only is_cte fs))) as [v|e1|k1]; cbn [bind] in X4; [discriminate| |discriminate]. congruence.
Qed.
Lemma error_same : forall fs fs' b err, Forall2 same_field fs fs' -> email_error E fs b err -> email_error E fs' b err.
Proof.
  intros fs fs' b err F H.
  assert (P1 : pick singular fs = pick singular fs') by (apply same_pick; [same_sel|exact F]). assert (P2 : pick is_from fs = pick is_from fs') by (apply same_pick; [same_sel|exact F]).
  assert (P3 : pick is_date fs = pick is_date fs') by (apply same_pick; [same_sel|exact F]). assert (P4 : pick is_sender fs = pick is_sender fs') by (apply same_pick; [same_sel|exact F]).
  assert (P5 : only is_cte fs = only is_cte fs') by (apply same_only; [same_sel|exact F]). assert (P6 : authors fs = authors fs') by (unfold authors, only; now rewrite P2).
  assert (P7 : only is_sender fs = only is_sender fs') by (unfold only; now rewrite P4).
  destruct H as [n R|H1 H2 H3|H1 H2 H3 H4|H1 H2 H3 H4 H5 H6|t w H1 H2 H3 H4 H5 H6 H7].
  - apply error_duplicate. destruct R as (pre & f & post & -> & Hf & Hi & Hn). apply Forall2_app_inv_l in F as (pre' & l' & F1 & F2 & ->). inversion F2 as [|x g y post' Hfg F3]; subst.
    exists pre', g, post'. split; [reflexivity|]. split; [destruct Hfg; exact Hf|]. assert (Q : pick singular pre = pick singular pre') by (apply same_pick; [same_sel|exact F1]). rewrite <- Q. auto.
  - rewrite P1 in H1. rewrite P2 in H3. now apply error_from.
  - rewrite P1 in H1. rewrite P3 in H3. rewrite P2 in H4. now apply error_date.
  - rewrite P1 in H1. rewrite P4 in H3. rewrite P6 in H4. rewrite P2 in H5. rewrite P3 in H6. now apply error_sender.
  - rewrite P1 in H1. rewrite P5 in H4. rewrite P2 in H5. rewrite P3 in H6. rewrite P6, P7 in H7. now apply (error_encoding E fs' b t w).
Qed.
Lemma from_once : forall fs, NoDup (pick singular fs) -> pick is_from fs <> [] -> exists l, pick is_from fs = [l] /\ authors fs = l.
Proof.
  intros fs N H. destruct (only is_from fs) as [l|] eqn:O; [|apply only_none in O; contradiction]. exists l. split; [|unfold authors; now rewrite O].
  apply (pick_once _ is_from "From" fs l); auto. intros f x. destruct f; cbn; try discriminate. reflexivity.
Qed.
Theorem refused_iff : forall d err, parse E d = Err err <-> refused E d err.
Proof.
  intros d err. assert (FS : f_sender E = true -> f_from E = true) by exact (ok_sender E HE). split.
  - intros H. destruct (parse_message E d) as [[fs b]|e|k] eqn:M.
    + destruct (message_reads d fs b M) as [R G]. rewrite (parse_assemble _ _ _ _ M) in H. pose proof (assemble_spec E fs b) as A. rewrite H in A.
      destruct A as [n R'|H1 H2 H3|H1 H2 H3 H4|H1 H2 H3 H4 H5 H6|t w H1 H2 H3 H4 H5 H6 H7].
      * eapply refused_duplicate; eauto.
      * eapply refused_from; eauto.
      * eapply refused_date; eauto.
      * specialize (FS H2). rewrite FS in H4. destruct (from_once fs H1 (H5 FS)) as (l & L1 & L2). rewrite L2 in H4.
        apply (refused_sender E d fs b l); auto. destruct l as [|m [|m' l]]; cbn; try discriminate. exfalso. now apply (H4 m).
      * destruct (unknown_content fs b w H) as (t' & X & Y). subst b. injection X as <-. apply (refused_content E d fs t w); auto. intros F. specialize (FS F). specialize (H7 F). rewrite FS in H7.
        destruct (from_once fs H1 (H5 FS)) as (l & L1 & L2). rewrite L2 in H7. destruct (pick is_sender fs) eqn:S; [|left; discriminate]. right. apply only_none in S. rewrite S in H7. cbn in H7.
        destruct l as [|m [|m' l]]; try congruence. eauto.
    + assert (err = e) by (unfold parse in H; rewrite M in H; cbn in H; congruence). subst e. apply message_refused in M as [[-> N]|(-> & F & fs & b & R & N)]; [now apply refused_headers|eapply refused_body; eauto].
    + unfold parse in H. rewrite M in H. discriminate.
  - assert (G : forall fs b, reads E d fs b -> good_body E b -> email_error E fs b err -> (forall w, err = Unknown w -> exists t, b = Some t /\ content_fault (encoding_of (only is_cte fs)) t = Some w) -> parse E d = Err err).
    { intros fs b R B X U. destruct (reads_message d fs b R B) as (fs' & M & F). pose proof (error_same fs fs' b err F X) as X'.
      destruct (parse_iff_error E d fs' b err HE M X') as (err' & P & [->|(w & w' & -> & ->)]); [exact P|]. rewrite P. do 2 f_equal.
      destruct (U w eq_refl) as (t & -> & C). pose proof P as P2. rewrite (parse_assemble _ _ _ _ M) in P2. apply unknown_content in P2 as (t' & Y & C'). injection Y as <-.
      rewrite <- (same_only _ is_cte fs fs') in C' by (auto; same_sel). congruence. }
    intros H. destruct H as [N|fs b F R N|fs b n R B X|fs b R B X1 X2 X3|fs b R B X1 X2 X3 X4|fs b l R B X1 X2 X3 X4 X5 X6|fs b w R X1 X2 X3 X4 X5 X6].
    + unfold parse. rewrite (proj2 (message_refused d _) (or_introl (conj eq_refl N))). reflexivity.
    + unfold parse. rewrite (proj2 (message_refused d no_body)); [reflexivity|]. right. eauto 6.
    + apply (G fs b R B); [now apply error_duplicate|discriminate].
    + apply (G fs b R B); [now apply error_from|discriminate].
    + apply (G fs b R B); [now apply error_date|discriminate].
    + apply (G fs b R B); [|discriminate]. apply error_sender; auto; [|congruence]. intros m. rewrite (FS X4). unfold authors, only. rewrite X2. cbn. intros ->. now apply X6.
    + apply (G fs (Some b) R); [congruence| |intros w' [= <-]; eauto]. apply (error_encoding E fs (Some b) b w); auto.
      * intros v V. apply (transfer_iff E) in V. apply (content_faults E) in X6. congruence.
      * intros F. specialize (X4 F). rewrite (FS F). destruct X4 as [X4|[m X4]].
        -- destruct (only is_sender fs) eqn:O; [cbn; discriminate|]. now apply only_none in O.
        -- unfold authors, only at 2. rewrite X4. cbn. destruct (only is_sender fs); discriminate.
Qed.
Theorem text_email : forall d fs b e, reads E d fs b -> parse E d = Ok e -> exists fs', Forall2 same_field fs fs' /\ email_of E fs' b e.
Proof.
  intros d fs b e R P. destruct (parse_ok_message E d e P) as (fs2 & b2 & M). destruct (reads_fields d fs b R) as (c3 & fs' & F1 & R1 & F). pose proof M as M'. apply message_ok in M as (c3' & F1' & _ & R1' & _).
  rewrite F1 in F1'. inversion F1'; subst c3' fs2. assert (b2 = b) by (destruct R1; inversion R1'; reflexivity). subst b2. exists fs'. split; [exact F|]. now apply (parse_iff_email E d fs' b e HE M').
Qed.
End Build.

(* ---- one error at a time ---- *)
Section Each.
Variable E : env.
Hypothesis HE : env_ok E.
Hypothesis HD : debug E = false \/ f_mime E = false.
Theorem refused_fun : forall d x y, refused E d x -> refused E d y -> x = y.
Proof. intros d x y H H'. apply (refused_iff E HE HD) in H, H'. congruence. Qed.
Theorem duplicate_text : forall d n, parse E d = Err (DuplicateHeader n) <-> exists fs b, reads E d fs b /\ good_body E b /\ first_repeat fs n.
Proof.
  intros d n. rewrite (refused_iff E HE HD). split.
  - intros H. inversion H; subst. eauto.
  - intros (fs & b & H1 & H2 & H3). eapply refused_duplicate; eauto.
Qed.
Theorem missing_text : forall d n, parse E d = Err (MissingHeader n) <-> exists fs b, reads E d fs b /\ good_body E b /\ NoDup (pick singular fs) /\
  (n = "From"%string /\ f_from E = true /\ pick is_from fs = [] \/
   (f_from E = true -> pick is_from fs <> []) /\ (n = "Date"%string /\ f_date E = true /\ pick is_date fs = [] \/
   (f_date E = true -> pick is_date fs <> []) /\ n = "Sender"%string /\ f_sender E = true /\ pick is_sender fs = [] /\ exists l, pick is_from fs = [l] /\ length l <> 1%nat)).
Proof.
  intros d n. rewrite (refused_iff E HE HD). split.
  - intros H. inversion H as [| | |fs b R B N F X|fs b R B N F X Y|fs b l R B N F D S X Y|]; subst; exists fs, b; (split; [exact R|]); (split; [exact B|]); (split; [exact N|]).
    + left. auto.
    + right. auto.
    + right. split; [congruence|]. right. split; [exact D|]. split; [reflexivity|]. split; [exact S|]. split; [exact X|]. eauto.
  - intros (fs & b & R & B & N & [(-> & F & X)|(F & [(-> & X & Y)|(D & -> & S & X & l & Y & Z)])]).
    + eapply refused_from; eauto.
    + eapply refused_date; eauto.
    + eapply refused_sender; eauto.
Qed.
Theorem email_text : forall d e, parse E d = Ok e -> exists fs b, reads E d fs b /\ good_body E b /\ email_of E fs b e.
Proof.
  intros d e P. destruct (parse_ok_message E d e P) as (fs & b & M). exists fs, b. destruct (message_reads E HE HD d fs b M) as [R G]. split; [exact R|]. split; [exact G|]. now apply (parse_iff_email E d fs b e HE M).
Qed.
End Each.
Theorem refused_debug : forall E d err, env_ok E -> (semicolons d < 256)%nat -> parse E d = Err err <-> refused (release E) d err.
Proof.
  intros E d err HE HS. rewrite (parse_same E d HE HS). apply refused_iff; [now apply release_ok|now left].
Qed.

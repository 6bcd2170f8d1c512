(* C49, C50: headers are read independently of each other. *)
From Coq Require Import Lia ZifyBool ZifyNat ZifyN Permutation.
From Verif Require Import Base Utf8 CharSets Combinators Whitespace QuotedString Common Time Address Percent MimeFields Fields Message Entity Email Envs
  Rfc5322 Rfc2047 Post CodecSpec RfcFields SoundBase SoundTime SoundAddr TagNoCase ParamProofs SoundFields EmailSpec SoundMessage EmailProofs MessageFacts Steps Complete CompleteFields Forward ForwardText
  ForwardFields ForwardMessage HeaderFacts LocalSpec Local LocalFacts RecaseFacts KeptFacts LinedFacts LessFacts RangeFacts LineSpec PercentProofs.
Local Open Scope N_scope.

(* ---- the two halves of a header block ---- *)
Lemma new_line_ends : forall i, new_line i -> ends is_wsp i.
Proof. intros [|c i] H; [exact I|]. cbn. destruct (is_wsp c) eqn:W; [|reflexivity]. exfalso. apply (H c i eq_refl). now apply wsp_spec. Qed.
Lemma ends_new_line : forall i, ends is_wsp i -> new_line i.
Proof. intros i H c r -> W. cbn in H. apply wsp_spec in W. congruence. Qed.
Lemma no_starts_trace : forall i, ~ starts_trace i -> no_trace i.
Proof.
  intros i H name Hn. unfold without. destruct (starts_nocase i (bs name ++ [58])) eqn:S; [|reflexivity]. exfalso. apply H. apply starts_nocase_spec in S as (n & r & -> & S).
  apply name_colon in S as (k & -> & Hk). exists name, k, r. split; [exact Hn|]. split; [exact Hk|]. now rewrite <- app_assoc.
Qed.
Lemma steps_through : forall A (p : parser A) T T', hlocal T T' p -> progress p -> forall i l r, steps p i l r -> forall i', later T T' i i' ->
  (exists z, r = z ++ CRLF ++ T) \/ exists l1 l2, l = l1 ++ l2 /\ steps p T l2 r /\ forall l' r', steps p T' l' r' -> steps p i' (l1 ++ l') r'.
Proof.
  intros A p T T' HL HP i l r H. induction H as [i e H|i r1 a l r H L Hs IH]; intros i' N.
  - destruct N as [(z & -> & _)|[-> ->]]; [left; eauto|]. right. exists [], []. split; [reflexivity|]. split; [econstructor; eauto|auto].
  - destruct N as [N|[-> ->]].
    + pose proof (HL i i' N) as X. rewrite H in X. destruct (p i') as [[r1' a']|e'|k'] eqn:Y; cbn in X; try contradiction. destruct X as [<- N1].
      destruct (IH r1' N1) as [Z|(l1 & l2 & -> & S1 & S2)]; [now left|right]. exists (a :: l1), l2. split; [reflexivity|]. split; [exact S1|]. intros l' r' S. cbn [app].
      eapply steps_more; [exact Y|exact (HP _ _ _ Y)|auto].
    + right. exists [], (a :: l). split; [reflexivity|]. split; [eapply steps_more; eauto|auto].
Qed.
Lemma hlines_ends : forall c, hlines c -> c = [] \/ exists z, c = z ++ CRLF.
Proof.
  intros c H. induction H as [|c d [n t Hn Ht] _ [->|[z ->]]]; [now left|right|right].
  - exists (n ++ [58] ++ t). now rewrite app_nil_r, <- !app_assoc.
  - exists ((n ++ [58] ++ t ++ CRLF) ++ z). now rewrite <- !app_assoc.
Qed.
Lemma hlines_stop : forall pre c z T y, hlines pre -> pre ++ T = c ++ z ++ CRLF ++ T -> (c = [] \/ ends_crlf c) -> ~ bare (z ++ CRLF ++ y).
Proof.
  intros pre c z T y Hp Hc Ec B. rewrite !app_assoc in Hc. apply app_inv_tail in Hc. subst pre. apply hlines_nolf in Hp. destruct B as [B|[b B]]; [destruct z; discriminate|].
  assert (S : exists d, z ++ CRLF = CRLF ++ d).
  { destruct z as [|a1 [|a2 z]]; [now exists []|injection B as -> B; discriminate|injection B as -> -> _]. now exists (z ++ CRLF). }
  destruct S as [d S]. rewrite <- app_assoc in Hp. rewrite S in Hp. destruct Ec as [->|[u ->]].
  - apply (Hp [13] (10 :: d)). reflexivity.
  - apply (Hp (CRLF ++ u ++ [13]) (10 :: d)). cbn [app CRLF]. now rewrite <- !app_assoc.
Qed.
Lemma later_failing : forall A (p : parser A) T T', hlocal T T' p -> (exists e, p T = Err e) -> (exists e, p T' = Err e) -> rlocal (later T T') p.
Proof. intros A p T T' H [e1 H1] [e2 H2] i i' [N|[-> ->]]; [now apply H|]. rewrite H1, H2. exact I. Qed.
Definition trace_part (E : env) (i : bytes) : res (bytes * list field) := if f_trace E then many (trace_block E) i else Ok (i, []).
Lemma fields_parts : forall E i, fields E i = let* (i, t) := trace_part E i in let* (i, l) := many (any_field E) i in Ok (i, t ++ l).
Proof. reflexivity. Qed.
(* the text after some header lines does not change how they are read *)
Lemma fields_edit : forall E pre T T' r fs, env_ok E -> hlines pre -> ends is_wsp T -> ends is_wsp T' -> (f_trace E = true -> no_trace T /\ no_trace T') ->
  fields E (pre ++ T) = Ok (r, fs) -> bare r -> exists l1 l2, fs = l1 ++ l2 /\ steps (any_field E) T l2 r /\
  forall l' r', steps (any_field E) T' l' r' -> fields E (pre ++ T') = Ok (r', l1 ++ l').
Proof.
  intros E pre T T' r fs HE Hp W W' HT H Hr. pose proof (fields_stop E _ _ _ HE H) as (c & Hc & Ec). rewrite fields_parts in H.
  assert (N : later T T' (pre ++ T) (pre ++ T')). { destruct (hlines_ends _ Hp) as [->|[z ->]]; [right; auto|left]. exists z. rewrite <- !app_assoc. auto. }
  assert (X : lrel (later T T') (trace_part E (pre ++ T)) (trace_part E (pre ++ T'))).
  { unfold trace_part. destruct (f_trace E) eqn:Ht; [|now apply lrel_ok]. destruct (HT eq_refl) as [H1 H1']. apply rlocal_many; auto using progress_block. apply rlocal_block.
    - apply later_failing; [now apply hlocal_return_path|apply return_path_none; apply H1; now left|apply return_path_none; apply H1'; now left].
    - apply later_failing; [now apply hlocal_received|apply received_none; apply H1; right; now left|apply received_none; apply H1'; right; now left].
    - apply later_failing; [now apply hlocal_resent_field|apply resent_none|apply resent_none]; intros name Hn; [apply H1|apply H1']; right; now right. }
  destruct (trace_part E (pre ++ T)) as [[r1 ft]|e|k]; cbn [bind] in H; try discriminate.
  destruct (trace_part E (pre ++ T')) as [[r1' ft']|e|k] eqn:Y; cbn in X; try contradiction. destruct X as [<- N1].
  destruct (many (any_field E) r1) as [[r2 fl]|e|k] eqn:M; cbn [bind] in H; try discriminate. injection H as -> <-. apply many_inv in M; [|exact (progress_any_field E HE)].
  destruct (steps_through _ _ T T' (hlocal_any_field T T' W W' E) (progress_any_field E HE) _ _ _ M _ N1) as [[z ->]|(l1 & l2 & -> & S1 & S2)].
  - exfalso. exact (hlines_stop pre c z T T Hp Hc Ec Hr).
  - exists (ft ++ l1), l2. split; [apply app_assoc|]. split; [exact S1|]. intros l' r' S. rewrite fields_parts, Y. cbn [bind]. rewrite (many_steps _ _ _ _ _ (S2 _ _ S)). cbn [bind]. now rewrite app_assoc.
Qed.
(* messages and their parts *)
Lemma message_ok : forall E i fs b, parse_message E i = Ok (fs, b) <-> exists r, fields E i = Ok (r, fs) /\ bare r /\ rest_text r b /\ (f_mime E = false -> forall x, b = Some x -> body_text x).
Proof.
  intros E i fs b. unfold parse_message. destruct (fields E i) as [[r l]|e|k]; cbn [bind]; [|split; [discriminate|intros (r & X & _); discriminate]..].
  destruct (f_mime E) eqn:HM.
  - pose proof (mime_body_outcome r) as O. destruct (mime_body r) as [[x|]|e|k]; cbn [bind]; [..|contradiction].
    + subst r. split.
      * intros X. inversion X; subst. exists (CRLF ++ x). split; [reflexivity|]. split; [right; eauto|]. split; [constructor|discriminate].
      * intros (r & X & _ & Y & _). inversion X; subst. inversion Y; subst. reflexivity.
    + subst r. split.
      * intros X. inversion X; subst. exists []. split; [reflexivity|]. split; [now left|]. split; [constructor|discriminate].
      * intros (r & X & _ & Y & _). inversion X; subst. inversion Y; subst. reflexivity.
    + split; [discriminate|]. intros (r' & X & [->|[x ->]] & _); inversion X; subst; destruct O as (_ & O1 & O2); [congruence|now destruct x].
  - pose proof (body_outcome r) as O. destruct (body r) as [[x|]|e|k]; cbn [bind]; [..|contradiction].
    + destruct O as [-> O]. split.
      * intros X. inversion X; subst. exists (CRLF ++ x). split; [reflexivity|]. split; [right; eauto|]. split; [constructor|]. intros _ y Y. now inversion Y; subst.
      * intros (r & X & _ & Y & _). inversion X; subst. inversion Y; subst. reflexivity.
    + subst r. split.
      * intros X. inversion X; subst. exists []. split; [reflexivity|]. split; [now left|]. split; [constructor|discriminate].
      * intros (r & X & _ & Y & _). inversion X; subst. inversion Y; subst. reflexivity.
    + split; [discriminate|]. intros (r' & X & B & Y & Z). inversion X; subst r' l. destruct O as [(_ & O1 & O2)|(_ & x & -> & O)].
      * destruct B as [->|[x ->]]; [congruence|now destruct x].
      * inversion Y; subst. exfalso. now apply O, Z.
Qed.
Lemma fields_untraced : forall E T, env_ok E -> (f_trace E = true -> no_trace T) -> fields E T = let* (i, l) := many (any_field E) T in Ok (i, l).
Proof.
  intros E T HE HT. unfold fields. destruct (f_trace E); [|reflexivity]. destruct (block_none E T (HT eq_refl)) as [e He]. rewrite (many_none _ _ _ _ He). reflexivity.
Qed.
Lemma fields_of_steps : forall E T r l, env_ok E -> (f_trace E = true -> no_trace T) -> fields E T = Ok (r, l) <-> steps (any_field E) T l r.
Proof.
  intros E T r l HE HT. rewrite fields_untraced by assumption. split.
  - destruct (many (any_field E) T) as [[r' l']|e|k] eqn:M; cbn [bind]; try discriminate. intros X. inversion X; subst. apply many_inv in M; [exact M|exact (progress_any_field E HE)].
  - intros S. now rewrite (many_steps _ _ _ _ _ S).
Qed.
Lemma proper_hline : forall x, proper_line x -> hline (line_text x).
Proof. intros [n t] [Hn Ht]. now constructor. Qed.
Lemma proper_hlines : forall ls, Forall proper_line ls -> hlines (block_text ls).
Proof. intros ls H. induction H; cbn [block_text map concat]; constructor; auto using proper_hline. Qed.
Lemma nil_bare : bare []. Proof. now left. Qed.
(* C49: a message is its header lines, then the rest *)
Lemma message_split : forall E pre post fs b, env_ok E -> Forall proper_line pre -> new_line post -> (f_trace E = true -> ~ starts_trace post) ->
  parse_message E (block_text pre ++ post) = Ok (fs, b) <->
  exists l1 l2, fs = l1 ++ l2 /\ parse_message E (block_text pre) = Ok (l1, None) /\ parse_message E post = Ok (l2, b).
Proof.
  intros E pre post fs b HE Hp Hn HT. apply proper_hlines in Hp. apply new_line_ends in Hn. assert (HT' : f_trace E = true -> no_trace post) by (intros X; apply no_starts_trace; auto). clear HT.
  assert (H0 : f_trace E = true -> no_trace []) by (intros _; apply bare_no_trace, nil_bare).
  assert (S0 : steps (any_field E) [] [] []) by (destruct (any_field_bare E [] nil_bare) as [e He]; econstructor; exact He).
  split.
  - intros H. apply message_ok in H as (r & H & Hr & Hb & Ht).
    destruct (fields_edit E _ post [] r fs HE Hp Hn I) as (l1 & l2 & -> & S1 & S2); auto. exists l1, l2. split; [reflexivity|]. split; apply message_ok.
    + exists []. specialize (S2 _ _ S0). rewrite !app_nil_r in S2. split; [exact S2|]. split; [now left|]. split; [constructor|discriminate].
    + exists r. split; [|auto]. now apply fields_of_steps.
  - intros (l1 & l2 & -> & H1 & H2). apply message_ok in H1 as (r1 & H1 & _ & B1 & _). inversion B1; subst r1. apply message_ok in H2 as (r & H2 & Hr & Hb & Ht).
    apply message_ok. exists r. split; [|auto]. rewrite <- (app_nil_r (block_text pre)) in H1.
    destruct (fields_edit E _ [] post [] l1 HE Hp I Hn) as (k1 & k2 & -> & S1 & S2); auto using nil_bare.
    assert (k2 = []) as ->. { pose proof (many_steps _ _ _ _ _ S1) as X. rewrite (many_steps _ _ _ _ _ S0) in X. now inversion X. }
    rewrite app_nil_r. apply S2. now apply fields_of_steps.
Qed.

(* ---- header by header ---- *)
Lemma lined_end : forall t u r, lined t -> t ++ CRLF = u ++ CRLF ++ r -> r = [] \/ exists w r', r = w :: r' /\ rfc_WSP w.
Proof.
  intros t u r H. revert u r. induction H as [|c t Hc H IH|w t Hw H IH]; intros u r E.
  - left. destruct u as [|a [|b [|d u]]]; cbn in E; injection E as E; try (subst; discriminate); auto.
  - destruct u as [|a u]; cbn in E; injection E as E1 E; [|eauto]. subst c. exfalso. unfold rfc_VCHAR, rfc_WSP in Hc. lia.
  - destruct u as [|a [|b [|d u]]]; cbn in E.
    + injection E as E. right. eauto.
    + injection E as _ E _. discriminate.
    + injection E as _ _ E _. exfalso. unfold rfc_WSP in Hw. lia.
    + injection E as _ _ _ E. eauto.
Qed.
Lemma ftext_lined : forall n, chars rfc_ftext n -> lined n.
Proof. intros n. apply lined_chars. intros c Hc. left. unfold rfc_ftext in Hc. unfold rfc_VCHAR. lia. Qed.
Lemma field_starts : forall E c f i, field_text E c f -> ends is_wsp (c ++ i).
Proof.
  intros E c f i H. pose proof (field_text_nonempty _ _ _ H) as Hn. apply field_hlines in H. revert Hn. destruct H as [|a d H _]; intros Hn; [congruence|]. rewrite <- app_assoc. apply starts_header_wsp. now apply hline_starts.
Qed.
Lemma line_one : forall E x l, env_ok E -> proper_line x -> steps (any_field E) (line_text x) l [] -> exists f, l = [f] /\ any_field E (line_text x) = Ok ([], f).
Proof.
  intros E [n t] l HE [Hn Ht] H. unfold line_text in *. cbn [fst snd] in *. inversion H as [i e X|i r a l' r' X L Hs]; subst; [destruct n; discriminate|].
  destruct (any_field_sound E _ _ _ HE X) as (c & Ec & Hc). destruct (field_ends _ _ _ Hc) as [u ->].
  assert (Y : lined (n ++ [58] ++ t)). { apply lined_app; [apply ftext_lined, Hn|]. apply lined_app; [apply lined_one; unfold rfc_VCHAR; lia|exact Ht]. }
  destruct (lined_end (n ++ [58] ++ t) u r Y) as [->|(w & r1 & -> & Hw)].
  { rewrite <- !app_assoc. rewrite <- app_assoc in Ec. exact Ec. }
  - exists a. split; [|exact X]. inversion Hs as [i e Z|i r a' l'' r' Z L' Hs']; subst; [reflexivity|]. cbn in L'. lia.
  - exfalso. inversion Hs as [i e Z|i r2 a' l'' r' Z L' Hs']; subst. destruct (any_field_sound E _ _ _ HE Z) as (c2 & Ec2 & Hc2). pose proof (field_starts E c2 a' r2 Hc2) as W. rewrite <- Ec2 in W. cbn in W.
    apply wsp_spec in Hw. congruence.
Qed.
Lemma tracing_names : tracing = trace_names.
Proof. reflexivity. Qed.
Lemma ftext_no_colon : forall n, chars1 rfc_ftext n -> ~ In 58 n.
Proof. intros n [_ H] X. unfold chars in H. rewrite Forall_forall in H. apply H in X. unfold rfc_ftext in X. lia. Qed.
Lemma tracing_no_colon : forall name, In name tracing -> ~ In 58 (bs name).
Proof. intros name H. cbn in H. repeat (destruct H as [<-|H]; [no_colon|]). destruct H. Qed.
Lemma line_no_trace : forall x i, proper_line x -> ~ trace_line x -> ~ starts_trace (line_text x ++ i).
Proof.
  intros [n t] i [Hn _] H (name & m & r & Hi & Hm & E). unfold line_text in E. cbn [fst snd] in *. rewrite <- !app_assoc in E. change (bs ":") with [58] in E. cbn [app] in E.
  apply colon_unique in E as [-> _]; [apply H; exists name; auto|now apply ftext_no_colon|]. eapply fold_nocolon; [exact Hm|now apply tracing_no_colon].
Qed.
Lemma block_no_trace : forall ls i, Forall proper_line ls -> Forall (fun x => ~ trace_line x) ls -> ~ starts_trace i -> ~ starts_trace (block_text ls ++ i).
Proof. intros ls i H1 H2 Hi. destruct H1 as [|x ls H1 _]; [exact Hi|]. unfold block_text. cbn [map concat]. rewrite <- app_assoc. apply line_no_trace; [exact H1|]. now inversion H2. Qed.
Lemma block_new_line : forall ls i, Forall proper_line ls -> new_line i -> new_line (block_text ls ++ i).
Proof.
  intros ls i H Hi. apply ends_new_line. apply new_line_ends in Hi. destruct H as [|x ls H _]; [exact Hi|]. unfold block_text. cbn [map concat]. rewrite <- app_assoc. apply starts_header_wsp, hline_starts. now apply proper_hline.
Qed.
Lemma nil_new_line : new_line []. Proof. intros c r X. discriminate. Qed.
Lemma nil_no_trace : ~ starts_trace [].
Proof. intros (name & n & r & _ & _ & X). destruct n; discriminate. Qed.
Lemma line_alone : forall E x l b, env_ok E -> proper_line x -> (f_trace E = true -> ~ trace_line x) -> parse_message E (line_text x) = Ok (l, b) ->
  exists f, l = [f] /\ b = None /\ any_field E (line_text x) = Ok ([], f) /\ field_text E (line_text x) f.
Proof.
  intros E x l b HE Hx HT H. apply message_ok in H as (r & H & Hr & Hb & _). rewrite fields_of_steps in H; [|exact HE|intros X; rewrite <- (app_nil_r (line_text x)); apply no_starts_trace, line_no_trace; auto].
  assert (r = [] /\ b = None) as [-> ->].
  { destruct Hr as [->|[b' ->]]; [inversion Hb; auto|]. exfalso.
    assert (S : exists c, line_text x = c ++ CRLF ++ b' /\ (c = [] \/ ends_crlf c)).
    { apply fields_of_steps in H; [|exact HE|intros X; rewrite <- (app_nil_r (line_text x)); apply no_starts_trace, line_no_trace; auto]. destruct (fields_stop _ _ _ _ HE H) as (c & Ec & Hc). eauto. }
    destruct S as (c & Ec & Hc). pose proof (hlines_nolf _ (hlines_one _ (proper_hline x Hx))) as Z. rewrite Ec in Z. destruct Hc as [->|[u ->]].
    - apply (Z [13] (10 :: b')). reflexivity.
    - apply (Z (CRLF ++ u ++ [13]) (10 :: b')). cbn [app CRLF]. now rewrite <- !app_assoc. }
  destruct (line_one E x l HE Hx H) as (f & -> & Hf). exists f. split; [reflexivity|]. split; [reflexivity|]. split; [exact Hf|].
  destruct (any_field_sound E _ _ _ HE Hf) as (c & Ec & Hc). rewrite app_nil_r in Ec. now subst.
Qed.
Lemma message_empty : forall E fs b, env_ok E -> parse_message E [] = Ok (fs, b) <-> fs = [] /\ b = None.
Proof.
  intros E fs b HE. assert (H0 : f_trace E = true -> no_trace []) by (intros _; apply bare_no_trace, nil_bare).
  assert (S0 : steps (any_field E) [] [] []) by (destruct (any_field_bare E [] nil_bare) as [e He]; econstructor; exact He).
  split.
  - intros H. apply message_ok in H as (r & H & _ & Hb & _). rewrite fields_of_steps in H by assumption. apply many_steps in H. rewrite (many_steps _ _ _ _ _ S0) in H. inversion H; subst. inversion Hb. auto.
  - intros [-> ->]. apply message_ok. exists []. split; [now apply fields_of_steps|]. split; [now left|]. split; [constructor|discriminate].
Qed.
(* C49: each header line is read on its own *)
Lemma message_lines : forall E ls post fs b, env_ok E -> Forall proper_line ls -> new_line post -> (f_trace E = true -> Forall (fun x => ~ trace_line x) ls /\ ~ starts_trace post) ->
  parse_message E (block_text ls ++ post) = Ok (fs, b) <->
  exists l l', fs = l ++ l' /\ Forall2 (fun x f => parse_message E (line_text x) = Ok ([f], None)) ls l /\ parse_message E post = Ok (l', b).
Proof.
  intros E ls post fs b HE Hl Hp HT. revert fs. induction Hl as [|x ls Hx Hl IH]; intros fs.
  - cbn [block_text map concat app]. split.
    + intros H. exists [], fs. split; [reflexivity|]. split; [constructor|exact H].
    + intros (l & l' & -> & H & H'). now inversion H; subst.
  - assert (HT' : f_trace E = true -> Forall (fun x => ~ trace_line x) ls /\ ~ starts_trace post). { intros X. destruct (HT X) as [Y Z]. split; [now inversion Y|exact Z]. }
    specialize (IH HT'). replace (block_text (x :: ls) ++ post) with (block_text [x] ++ block_text ls ++ post) by (unfold block_text; cbn [map concat]; now rewrite app_nil_r, app_assoc).
    rewrite message_split; [|exact HE|now constructor|now apply block_new_line|intros X; destruct (HT' X); now apply block_no_trace].
    replace (block_text [x]) with (line_text x) by (unfold block_text; cbn [map concat]; now rewrite app_nil_r). split.
    + intros (l1 & l2 & -> & H1 & H2). apply IH in H2 as (l & l' & -> & H2 & H3). destruct (line_alone E x l1 None HE Hx) as (f & -> & _ & _); [|exact H1|].
      { intros X. destruct (HT X) as [Y _]. now inversion Y. }
      exists (f :: l), l'. split; [reflexivity|]. split; [now constructor|exact H3].
    + intros (l & l' & -> & H2 & H3). inversion H2 as [|? f ? l2 H4 H5]; subst. exists [f], (l2 ++ l'). split; [reflexivity|]. split; [exact H4|]. apply IH. eauto.
Qed.

(* ---- what a header is named ---- *)
Definition kind (f : field) : option string :=
  match f with
  | FDate _ => Some "Date" | FFrom _ => Some "From" | FSender _ => Some "Sender" | FReplyTo _ => Some "Reply-To" | FTo _ => Some "To" | FCc _ => Some "Cc" | FBcc _ => Some "Bcc"
  | FMessageId _ => Some "Message-ID" | FInReplyTo _ => Some "In-Reply-To" | FReferences _ => Some "References" | FSubject _ => Some "Subject" | FComments _ => Some "Comments" | FKeywords _ => Some "Keywords"
  | FMimeVersion _ _ => Some "MIME-Version" | FContentType _ _ _ => Some "Content-Type" | FContentTransferEncoding _ => Some "Content-Transfer-Encoding" | FContentId _ => Some "Content-ID"
  | FContentDescription _ => Some "Content-Description" | FContentDisposition _ => Some "Content-Disposition"
  | FTrace _ _ _ | FUnknown _ _ => None
  end%string.
Lemma header_named : forall A (name : string) (V : bytes -> A -> Prop) n r v, rfc_header name V (n ++ [58] ++ r) v -> chars1 rfc_ftext n -> ~ In 58 (bs name) -> same_nocase n (bs name).
Proof.
  intros A name V n r v H Hn Hc. inversion H as [m c v' H1 H2 E]; subst. cbn [app] in E. apply colon_unique in E as [<- _]; [exact H1| |now apply ftext_no_colon]. eapply fold_nocolon; eauto.
Qed.
Ltac in_names E := unfold known_names; repeat match goal with H : ?x = true |- _ => rewrite H end; cbn [when]; repeat (apply in_or_app; first [solve [left; cbn; tauto]|right]).
Lemma field_named : forall E n r f, chars1 rfc_ftext n -> field_text E (n ++ [58] ++ r) f -> is_trace f = None ->
  (exists c v, f = FUnknown n v /\ r = c ++ CRLF /\ rfc_text_value (f_unrecognized_headers E) (textcode E) c v) \/
  exists N, kind f = Some N /\ same_nocase n (bs N) /\ In N (known_names E).
Proof.
  intros E n r f Hn H HT. remember (n ++ [58] ++ r) as c eqn:Ec. destruct H; try discriminate HT; subst;
    try (right; eexists; split; [reflexivity|]; split; [eapply header_named; [eassumption|exact Hn|no_colon]|];
         unfold known_names; repeat match goal with H : ?x = true |- _ => rewrite H; clear H end; cbn [when]; repeat (apply in_or_app; first [solve [left; cbn; tauto]|right]); cbn; tauto).
  left. inversion H as [m c v' H1 H2 E1 E2]; subst. cbn [app] in E1. apply colon_unique in E1 as [<- <-]; [|now apply ftext_no_colon|now apply ftext_no_colon]. eauto.
Qed.

(* ---- emails ---- *)
(* two lists of fields that differ in the unknown headers and the order of different kinds *)
Definition alike (fs fs' : list field) : Prop := (NoDup (pick singular fs) -> NoDup (pick singular fs')) /\
  forall A (sel : field -> option A) k, (forall f a, sel f = Some a -> kind f = k /\ is_unknown f = None) -> pick sel fs = pick sel fs'.
Ltac one_kind := let f := fresh in let a := fresh in intros f a; destruct f; cbn; intros; try discriminate; split; reflexivity.
Lemma alike_email : forall E fs fs' b e, alike fs fs' -> email_of E fs b e -> email_of E fs' b (with_unknown e (pick is_unknown fs')).
Proof.
  intros E fs fs' b e [HN H] [H1 H2 H3 H4 H5 H6 H7 H8 H9 H10 H11 H12 H13 H14 H15 H16 H17 H18].
  assert (O : forall A (sel : field -> option A) k, (forall f a, sel f = Some a -> kind f = k /\ is_unknown f = None) -> only sel fs' = only sel fs).
  { intros A sel k Hk. unfold only. now rewrite (H A sel k Hk). }
  constructor; cbn [with_unknown from sender subject date_of to cc bcc message_id_of in_reply_to references reply_to comments keywords trace_of mime_entity body_of unknown_fields].
  - auto.
  - rewrite (O _ is_from (Some "From")%string) by one_kind. exact H2.
  - rewrite (O _ is_date (Some "Date")%string) by one_kind. exact H3.
  - rewrite (O _ is_sender (Some "Sender")%string) by one_kind. exact H4.
  - rewrite (O _ is_subject (Some "Subject")%string) by one_kind. exact H5.
  - rewrite (O _ is_to (Some "To")%string) by one_kind. exact H6.
  - rewrite (O _ is_cc (Some "Cc")%string) by one_kind. exact H7.
  - rewrite (O _ is_bcc (Some "Bcc")%string) by one_kind. exact H8.
  - rewrite (O _ is_message_id (Some "Message-ID")%string) by one_kind. exact H9.
  - rewrite (O _ is_in_reply_to (Some "In-Reply-To")%string) by one_kind. exact H10.
  - rewrite (O _ is_references (Some "References")%string) by one_kind. exact H11.
  - rewrite (O _ is_reply_to (Some "Reply-To")%string) by one_kind. exact H12.
  - rewrite <- (H _ is_comments (Some "Comments")%string) by one_kind. exact H13.
  - rewrite <- (H _ is_keywords (Some "Keywords")%string) by one_kind. exact H14.
  - rewrite <- (H _ is_trace None) by one_kind. exact H15.
  - reflexivity.
  - exact H17.
  - rewrite (O _ is_cte (Some "Content-Transfer-Encoding")%string), (O _ is_content_type (Some "Content-Type")%string), (O _ is_content_description (Some "Content-Description")%string),
      (O _ is_content_id (Some "Content-ID")%string), (O _ is_content_disposition (Some "Content-Disposition")%string) by one_kind. exact H18.
Qed.
Lemma pick_cons : forall A (sel : field -> option A) f fs, pick sel (f :: fs) = opt_list (sel f) ++ pick sel fs.
Proof. reflexivity. Qed.
Lemma alike_unknown : forall l1 l2 n v, alike (l1 ++ l2) (l1 ++ FUnknown n v :: l2) /\ alike (l1 ++ FUnknown n v :: l2) (l1 ++ l2).
Proof.
  intros l1 l2 n v. assert (P : forall A (sel : field -> option A), sel (FUnknown n v) = None -> pick sel (l1 ++ l2) = pick sel (l1 ++ FUnknown n v :: l2)).
  { intros A sel H. rewrite !pick_app, pick_cons, H. reflexivity. }
  assert (S : forall A (sel : field -> option A) k, (forall f a, sel f = Some a -> kind f = k /\ is_unknown f = None) -> sel (FUnknown n v) = None).
  { intros A sel k H. destruct (sel (FUnknown n v)) eqn:X; [|reflexivity]. apply H in X as [_ X]. discriminate. }
  split; split.
  - now rewrite (P _ singular).
  - intros A sel k H. apply P. eauto.
  - now rewrite (P _ singular).
  - intros A sel k H. symmetry. apply P. eauto.
Qed.
Lemma with_unknown_own : forall e, with_unknown e (unknown_fields e) = e. Proof. now destruct e. Qed.
Lemma with_unknown_twice : forall e u u', with_unknown (with_unknown e u) u' = with_unknown e u'. Proof. reflexivity. Qed.
Lemma line_has_no_blank : forall x, proper_line x -> new_line (line_text x).
Proof. intros x H. rewrite <- (app_nil_r (line_text x)). apply ends_new_line, starts_header_wsp, hline_starts. now apply proper_hline. Qed.

Section Insert.
Variables (E : env) (pre : list line) (x : line) (post : bytes).
Hypothesis HE : env_ok E.
Hypothesis Hpre : Forall proper_line pre.
Hypothesis Hx : proper_line x.
Hypothesis Hpost : new_line post.
Hypothesis Htrace : f_trace E = true -> ~ starts_trace post.
Hypothesis Hname : forall name, In name (known_names E) -> ~ same_nocase (fst x) (bs name).
Lemma unknown_untraced : f_trace E = true -> ~ trace_line x.
Proof.
  intros HT (name & Hn & Hs). apply (Hname name); [|exact Hs]. unfold known_names. rewrite HT. cbn [when]. repeat (apply in_or_app; right). exact Hn.
Qed.
Lemma inserted : forall fs b, parse_message E (block_text pre ++ line_text x ++ post) = Ok (fs, b) <->
  exists l1 l2 f, fs = l1 ++ f :: l2 /\ parse_message E (block_text pre) = Ok (l1, None) /\ parse_message E (line_text x) = Ok ([f], None) /\ parse_message E post = Ok (l2, b).
Proof.
  intros fs b. assert (T : f_trace E = true -> ~ starts_trace (line_text x ++ post)) by (intros T; apply line_no_trace; auto using unknown_untraced).
  rewrite message_split; [|exact HE|exact Hpre|apply ends_new_line, starts_header_wsp, hline_starts; now apply proper_hline|exact T].
  assert (B : block_text [x] = line_text x) by (unfold block_text; cbn [map concat]; now rewrite app_nil_r). split.
  - intros (l1 & l2 & -> & H1 & H2). rewrite <- B in H2. apply message_split in H2 as (k1 & k2 & -> & H2 & H3); auto. rewrite B in H2.
    destruct (line_alone E x k1 None HE Hx unknown_untraced H2) as (f & -> & _ & _). exists l1, k2, f. auto.
  - intros (l1 & l2 & f & -> & H1 & H2 & H3). exists l1, (f :: l2). split; [reflexivity|]. split; [exact H1|]. rewrite <- B. apply message_split; auto. exists [f], l2. rewrite B. auto.
Qed.
Lemma unknown_read : forall l, parse_message E (line_text x) = Ok (l, None) -> exists v, l = [FUnknown (fst x) v] /\ rfc_text_value (f_unrecognized_headers E) (textcode E) (snd x) v.
Proof.
  intros l H. destruct (line_alone E x l None HE Hx unknown_untraced H) as (f & -> & _ & Hf & Ht). destruct x as [n t]. unfold line_text in *. cbn [fst snd] in *. change (bs ":") with [58] in *.
  destruct (field_named E n (t ++ CRLF) f (proj1 Hx) Ht (any_field_not_trace _ _ _ _ Hf)) as [(c & v & -> & Ec & Hv)|(N & _ & HN & Hi)]; [|exfalso; eapply Hname; eauto].
  apply app_inv_tail in Ec as <-. eauto.
Qed.
Lemma unknown_inserted : forall v e, clear_text_value (f_unrecognized_headers E) (textcode E) (snd x) v -> parse E (block_text pre ++ post) = Ok e ->
  exists u1 u2, unknown_fields e = u1 ++ u2 /\ parse E (block_text pre ++ line_text x ++ post) = Ok (with_unknown e (u1 ++ (fst x, v) :: u2)).
Proof.
  intros v e Hv H. destruct (parse_ok_message _ _ _ H) as (fs & b & M). apply (parse_iff_email E _ fs b e HE M) in H. apply message_split in M as (l1 & l2 & -> & M1 & M2); auto.
  assert (X : parse_message E (line_text x) = Ok ([FUnknown (fst x) v], None)).
  { apply message_ok. exists []. split; [|split; [now left|split; [constructor|discriminate]]]. apply fields_of_steps; [exact HE| |].
    - intros T. rewrite <- (app_nil_r (line_text x)). apply no_starts_trace, line_no_trace; auto using unknown_untraced.
    - destruct (any_field_forward E (line_text x) (FUnknown (fst x) v) [] (ok_hash E HE)) as (f' & F & S); [|exact I|].
      + constructor. unfold line_text. constructor; [apply Hx|exact Hname|exact Hv].
      + rewrite app_nil_r in F. inversion S; subst. eapply steps_more; [exact F|exact (progress_any_field E HE _ _ _ F)|]. destruct (any_field_bare E [] nil_bare) as [e' He']. econstructor; exact He'. }
  assert (M : parse_message E (block_text pre ++ line_text x ++ post) = Ok (l1 ++ FUnknown (fst x) v :: l2, b)) by (apply inserted; eauto 10).
  exists (pick is_unknown l1), (pick is_unknown l2). split; [rewrite (of_unknown _ _ _ _ H); apply pick_app|].
  apply (parse_iff_email E _ _ _ _ HE M). pose proof (alike_email E _ _ b e (proj1 (alike_unknown l1 l2 (fst x) v)) H) as Y. now rewrite pick_app, pick_cons in Y.
Qed.
Lemma unknown_removed : forall e, parse E (block_text pre ++ line_text x ++ post) = Ok e ->
  exists u1 v u2, rfc_text_value (f_unrecognized_headers E) (textcode E) (snd x) v /\ unknown_fields e = u1 ++ (fst x, v) :: u2 /\
  parse E (block_text pre ++ post) = Ok (with_unknown e (u1 ++ u2)).
Proof.
  intros e H. destruct (parse_ok_message _ _ _ H) as (fs & b & M). apply (parse_iff_email E _ fs b e HE M) in H. apply inserted in M as (l1 & l2 & f & -> & M1 & M2 & M3).
  destruct (unknown_read _ M2) as (v & F & Hv). injection F as ->. exists (pick is_unknown l1), v, (pick is_unknown l2). split; [exact Hv|]. split; [rewrite (of_unknown _ _ _ _ H), pick_app; reflexivity|].
  assert (M : parse_message E (block_text pre ++ post) = Ok (l1 ++ l2, b)) by (apply message_split; eauto).
  apply (parse_iff_email E _ _ _ _ HE M). pose proof (alike_email E _ _ b e (proj2 (alike_unknown l1 l2 (fst x) v)) H) as Y. now rewrite pick_app in Y.
Qed.
End Insert.

(* ---- the order of headers ---- *)
Lemma has_name_spec : forall A n (x : bytes * A), has_name n x = true <-> same_nocase n (fst x).
Proof. intros A n x. unfold has_name. apply bytes_eqb_eq. Qed.
Lemma has_name_other : forall A n m (x : bytes * A), same_nocase n m -> has_name n x = has_name m x.
Proof. intros A n m x H. unfold has_name. unfold same_nocase in H. now rewrite H. Qed.
Lemma filter_split : forall A (p : A -> bool) l x r, filter p l = x :: r -> exists u v, l = u ++ x :: v /\ filter p u = [] /\ filter p v = r.
Proof.
  intros A p l x r. induction l as [|y l IH]; [discriminate|]. cbn [filter]. destruct (p y) eqn:P; intros H.
  - inversion H; subst. exists [], l. auto.
  - destruct (IH H) as (u & v & -> & H1 & H2). exists (y :: u), v. split; [reflexivity|]. split; [|exact H2]. cbn [filter]. now rewrite P.
Qed.
Lemma same_order_permutation : forall A (l l' : list (bytes * A)), same_order l l' -> Permutation l l'.
Proof.
  intros A l. induction l as [|x l IH]; intros l' H.
  - destruct l' as [|y l']; [constructor|]. specialize (H (fst y)). cbn [filter] in H. replace (has_name (fst y) y) with true in H by (symmetry; now apply has_name_spec). discriminate.
  - pose proof (H (fst x)) as Hx. cbn [filter] in Hx. replace (has_name (fst x) x) with true in Hx by (symmetry; now apply has_name_spec). symmetry in Hx.
    apply filter_split in Hx as (u & v & -> & H1 & H2). apply Permutation_cons_app. apply IH. intros n. specialize (H n). cbn [filter] in H. rewrite filter_app in *. cbn [filter] in H.
    destruct (has_name n x) eqn:N; [|exact H]. apply has_name_spec in N.
    rewrite (filter_ext (has_name n) (has_name (fst x))) with (l := u) in * by (intros; now apply has_name_other). rewrite H1 in *. cbn [app] in *. now injection H.
Qed.
Lemma pick_permutation : forall A (sel : field -> option A) l l', Permutation l l' -> Permutation (pick sel l) (pick sel l').
Proof.
  intros A sel l l' H. induction H; [constructor| | |eapply Permutation_trans; eauto]; rewrite ?pick_cons.
  - now apply Permutation_app_head.
  - rewrite !app_assoc. apply Permutation_app_tail, Permutation_app_comm.
Qed.
Definition read (E : env) (x : line) : field := match parse_message E (line_text x) with Ok ([f], None) => f | _ => FUnknown [] [] end.
Definition reads (E : env) (x : line) (f : field) : Prop := parse_message E (line_text x) = Ok ([f], None).
Lemma reads_map : forall E ls l, Forall2 (reads E) ls l <-> l = map (read E) ls /\ Forall (fun x => reads E x (read E x)) ls.
Proof.
  intros E ls l. assert (R : forall x f, reads E x f -> read E x = f) by (intros x f H; unfold read; now rewrite H). split.
  - intros H. induction H as [|x f ls l H _ [-> IH]]; [split; [reflexivity|constructor]|]. rewrite <- (R _ _ H) in *. split; [reflexivity|]. constructor; [|exact IH]. now rewrite (R _ _ H) in *.
  - intros [-> H]. induction H; constructor; auto.
Qed.
Section Order.
Variable E : env.
Hypothesis HE : env_ok E.
Definition readable (x : line) : Prop := proper_line x /\ (f_trace E = true -> ~ trace_line x) /\ reads E x (read E x).
Lemma read_named : forall x, readable x -> is_trace (read E x) = None /\
  ((exists v, read E x = FUnknown (fst x) v) \/ exists N, kind (read E x) = Some N /\ same_nocase (fst x) (bs N) /\ is_unknown (read E x) = None).
Proof.
  intros x (Hx & HT & H). destruct (line_alone E x _ None HE Hx HT H) as (f & F & _ & Ha & Ht). injection F as F. rewrite F in *. clear F.
  assert (N : is_trace f = None) by exact (any_field_not_trace _ _ _ _ Ha). split; [exact N|]. destruct x as [n t]. cbn [fst snd] in *.
  destruct (field_named E n (t ++ CRLF) f (proj1 Hx) Ht N) as [(c & v & -> & _)|(k & K1 & K2 & _)]; [left; eauto|right]. exists k. split; [exact K1|]. split; [exact K2|]. now destruct f.
Qed.
Lemma pick_named : forall A (sel : field -> option A) k ls, (forall f a, sel f = Some a -> kind f = k /\ is_unknown f = None) -> Forall readable ls ->
  pick sel (map (read E) ls) = match k with Some N => pick sel (map (read E) (filter (has_name (bs N)) ls)) | None => [] end.
Proof.
  intros A sel k ls Hs H. induction H as [|x ls Hx H IH]; [now destruct k|]. cbn [map]. rewrite pick_cons, IH. clear IH. apply read_named in Hx as [Ht Hx].
  destruct (sel (read E x)) as [a|] eqn:S.
  - apply Hs in S as S'. destruct S' as [K U]. destruct Hx as [[v Hx]|(N & KN & HN & _)]; [rewrite Hx in U; discriminate|]. rewrite K in KN. subst k. cbn [filter].
    replace (has_name (bs N) x) with true by (symmetry; apply has_name_spec; now symmetry). cbn [map]. now rewrite pick_cons, S.
  - destruct k as [N|]; [|reflexivity]. cbn [filter]. destruct (has_name (bs N) x); [|reflexivity]. cbn [map]. now rewrite pick_cons, S.
Qed.
Lemma unknown_named : forall n ls, Forall readable ls -> filter (has_name n) (pick is_unknown (map (read E) ls)) = pick is_unknown (map (read E) (filter (has_name n) ls)).
Proof.
  intros n ls H. induction H as [|x ls Hx H IH]; [reflexivity|]. cbn [map]. rewrite pick_cons, filter_app, IH. clear IH. apply read_named in Hx as [_ Hx]. cbn [filter].
  assert (Y : forall v : bytes, has_name n (fst x, v) = has_name n x) by reflexivity. destruct Hx as [[v Hx]|(N & _ & _ & Hx)].
  - rewrite Hx. cbn [is_unknown opt_list filter]. rewrite Y. destruct (has_name n x); [|reflexivity]. cbn [map]. rewrite pick_cons, Hx. reflexivity.
  - rewrite Hx. destruct (has_name n x); [|reflexivity]. cbn [map]. rewrite pick_cons, Hx. reflexivity.
Qed.
Lemma order_alike : forall l1 ls ls' l2, same_order ls ls' -> Forall readable ls -> alike (l1 ++ map (read E) ls ++ l2) (l1 ++ map (read E) ls' ++ l2).
Proof.
  intros l1 ls ls' l2 HO H. pose proof (same_order_permutation _ _ _ HO) as P. assert (H' : Forall readable ls') by (eapply Permutation_Forall; eauto). split.
  - apply Permutation_NoDup, pick_permutation, Permutation_app_head, Permutation_app_tail, Permutation_map, P.
  - intros A sel k Hs. rewrite !pick_app, !(pick_named A sel k) by assumption. destruct k as [N|]; [|reflexivity]. now rewrite (HO (bs N)).
Qed.
(* C49: headers of different names may be exchanged *)
Lemma email_order : forall pre ls ls' post e, Forall proper_line pre -> Forall proper_line ls -> new_line post ->
  (f_trace E = true -> Forall (fun x => ~ trace_line x) ls /\ ~ starts_trace post) -> same_order ls ls' -> parse E (block_text pre ++ block_text ls ++ post) = Ok e ->
  exists u, same_order (unknown_fields e) u /\ parse E (block_text pre ++ block_text ls' ++ post) = Ok (with_unknown e u).
Proof.
  intros pre ls ls' post e Hpre Hls Hpost HT HO H. destruct (parse_ok_message _ _ _ H) as (fs & b & M). apply (parse_iff_email E _ fs b e HE M) in H.
  pose proof (same_order_permutation _ _ _ HO) as P. assert (Hls' : Forall proper_line ls') by (eapply Permutation_Forall; eauto).
  assert (HT' : f_trace E = true -> Forall (fun x => ~ trace_line x) ls' /\ ~ starts_trace post). { intros X. destruct (HT X). split; [eapply Permutation_Forall; eauto|assumption]. }
  apply message_split in M as (l1 & l2 & -> & M1 & M2); [|exact HE|exact Hpre|now apply block_new_line|intros X; destruct (HT X); now apply block_no_trace].
  apply message_lines in M2 as (l & l3 & -> & R & M3); [|assumption..]. apply reads_map in R as [-> R].
  assert (Rd : Forall readable ls). { apply Forall_forall. intros x Hx. rewrite Forall_forall in Hls, R. split; [auto|]. split; [|auto]. intros X. destruct (HT X) as [Y _]. rewrite Forall_forall in Y. auto. }
  exists (pick is_unknown (l1 ++ map (read E) ls' ++ l3)). split.
  - rewrite (of_unknown _ _ _ _ H). intros n. rewrite !pick_app, !filter_app, !unknown_named; [now rewrite (HO n)|eapply Permutation_Forall; eauto|exact Rd].
  - assert (M : parse_message E (block_text pre ++ block_text ls' ++ post) = Ok (l1 ++ map (read E) ls' ++ l3, b)).
    { apply message_split; [exact HE|exact Hpre|now apply block_new_line|intros X; destruct (HT' X); now apply block_no_trace|]. exists l1, (map (read E) ls' ++ l3). split; [reflexivity|]. split; [exact M1|].
      apply message_lines; [assumption..|]. exists (map (read E) ls'), l3. split; [reflexivity|]. split; [|exact M3]. apply reads_map. split; [reflexivity|]. eapply Permutation_Forall; eauto. }
    apply (parse_iff_email E _ _ _ _ HE M). eapply alike_email; [|exact H]. now apply order_alike.
Qed.
End Order.

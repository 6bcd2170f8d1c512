(* C74: the parts of multiparts that are made of header lines. *)
From Coq Require Import Lia ZifyBool ZifyNat ZifyN.
From Verif Require Import SafetyProofs Base Utf8 CharSets Combinators Whitespace QuotedString Common Time Address MimeFields Fields Message Entity Email Envs
  Rfc5322 Rfc2047 Post CodecSpec RfcFields SoundBase SoundTime SoundAddr TagNoCase SoundFields EmailSpec SoundMessage EmailProofs MessageFacts Steps Complete CompleteFields Forward
  ForwardText ForwardMime ForwardFields ForwardMessage HeaderFacts LocalSpec Local LocalFacts KeptFacts Writers WriteFacts WriteAddr RegularSpec RegularFacts NeatFacts TidyFacts TraceFacts RangeFacts LinedFacts LessFacts LineSpec LineFacts LessExact
  KeenFacts ExactSpec RangeWrite PercentProofs ExactFacts MimeExactSpec MimeExactFields MultipartSpec EntitySpec EntityProofs CutSpec CutFacts TreeSpec TreeFacts PartExactSpec PartExactFacts RefuseSpec RefuseFacts RefuseParts TruncSpec TruncFacts ShownSpec ShownFacts NeverSpec NeverFacts MultipartRound Rfc2046Spec Rfc2046Facts.
Local Open Scope N_scope.

Definition part_legible (E : env) (x : line) : Prop := proper_line x /\ forall i, ends is_wsp i -> exists h, entity_header_parser E (LineSpec.line_text x ++ i) = Ok (i, h) /\ (of_encoding h <> None -> same_nocase (fst x) (bs "Content-Transfer-Encoding")).
Lemma good_part : forall E x, env_ok E -> f_mime E = true -> debug E = false -> good_line x -> not_stopped x -> part_legible E x.
Proof.
  intros E x HE HM HD HG HS. destruct (mime_legible E x HE HM HD HG HS) as [P L]. split; [exact P|]. intros i Hi. destruct (known_dec (fst x) part_names) as [K|(name & Hin & K)].
  - destruct x as [n t]. destruct HG as [[Hn Ht] Hu]. cbn [fst snd] in *. unfold LineSpec.line_text. cbn [fst snd]. change (bs ":") with [58]. rewrite <- !app_assoc.
    destruct (clear_value_exists E t Ht Hu) as [v Hv]. exists (HOther n v). split; [|intros Z; exfalso; now apply Z]. rewrite unnamed_part.
    + apply parsers_hit. apply (pmap_ok _ _ (fun '(n, v) => HOther n v) (unknown E) _ i (n, v)). now apply unknown_forward.
    + intros name Hin. apply named_without; [now apply LineFacts.ftext_no_colon|now apply part_names_no_colon|now apply K].
  - destruct (L i Hi) as [f F]. exists (to_header f). split.
    + rewrite (named_same E name _ HM Hin); [unfold pmap; now rewrite F|]. unfold LineSpec.line_text. change (bs ":") with [58]. rewrite <- !app_assoc. now apply with_header.
    + intros Z. destruct f; try (exfalso; now apply Z). eapply (read_encoded E x _ P). split; [|exact (any_field_not_trace E _ _ _ F)]. destruct (any_field_sound E _ _ _ HE F) as (c & Ec & Hc). apply app_inv_tail in Ec. now rewrite Ec.
Qed.
(* a header of a part, with the line that gives it *)
Definition encodes (x : line) (h : entity_header) : Prop := of_encoding h <> None -> same_nocase (fst x) (bs "Content-Transfer-Encoding").
Lemma part_steps : forall E ls i, Forall (part_legible E) ls -> bare i -> exists hs, Forall2 encodes ls hs /\ steps (entity_header_parser E) (LineSpec.block_text ls ++ i) hs i.
Proof.
  intros E ls i H Hi. induction H as [|x ls Hx H IH].
  - exists []. split; [constructor|]. destruct (part_header_none E i Hi) as [e X]. econstructor. exact X.
  - destruct IH as (hs & L & IH). assert (N : new_line (LineSpec.block_text ls ++ i)). { apply block_new_line; [eapply Forall_impl; [|exact H]; intros y [Y _]; exact Y|now apply bare_new_line]. }
    destruct Hx as [_ Hx]. destruct (Hx (LineSpec.block_text ls ++ i)) as (h & F & C); [now apply new_line_ends|]. exists (h :: hs). split; [constructor; [exact C|exact L]|].
    change (LineSpec.block_text (x :: ls)) with (LineSpec.line_text x ++ LineSpec.block_text ls). rewrite <- app_assoc. econstructor; [exact F| |exact IH].
    rewrite app_length. unfold LineSpec.line_text. rewrite !app_length. cbn. lia.
Qed.
Lemma last_encoded : forall ls hs e, Forall2 encodes ls hs -> last_some of_encoding hs = Some e -> exists x, In x ls /\ same_nocase (fst x) (bs "Content-Transfer-Encoding").
Proof.
  intros ls hs e L H. apply TextFacts.last_some_in in H as (h & I & N).
  apply in_split in I as (p1 & p2 & ->). apply Forall2_app_inv_r in L as (l1 & l2 & _ & L & ->). inversion L as [|x ? l3 ? X _]; subst. exists x. split; [apply in_or_app; right; now left|apply X; congruence].
Qed.
Theorem part_lines : forall E ls r, env_ok E -> f_mime E = true -> debug E = false -> Forall good_line ls -> Forall not_stopped ls -> r = [] \/ (exists b, r = CRLF ++ b) ->
  (exists p, raw_entity E (LineSpec.block_text ls ++ r) = Ok p) \/
  (exists w x, raw_entity E (LineSpec.block_text ls ++ r) = Err (Unknown w) /\ In x ls /\ same_nocase (fst x) (bs "Content-Transfer-Encoding")).
Proof.
  intros E ls r HE HM HD H HS B. assert (HL : Forall (part_legible E) ls). { rewrite Forall_forall in *. intros x Hx. apply good_part; auto. }
  destruct (part_steps E ls r HL B) as (hs & L & S). destruct (raw_cases E HE HM HD (LineSpec.block_text ls ++ r)) as (r0 & hs' & M & C).
  rewrite (many_steps _ _ _ _ _ S) in M. injection M as <- <-. destruct C as [(b & Hb & _ & C)|(N & _)].
  2: { exfalso. destruct B as [->|[b ->]]; [apply (N []); left; auto|apply (N b); now right]. }
  destruct (raw_entity E (LineSpec.block_text ls ++ r)) as [p|err|k] eqn:R; [eauto| |exfalso; exact (raw_no_crash E HE HD _ _ R)]. right.
  pose proof (proj1 (C err) eq_refl) as D. pose proof (decode_value_spec E b (encoding_of (last_some of_encoding hs))) as V. rewrite D in V. destruct V as [[w ->] V].
  destruct (last_some of_encoding hs) as [e|] eqn:O; [|exfalso; exact (V b (transfer_7bit b))]. destruct (last_encoded ls hs e L O) as (x & I & K). exists w, x. auto.
Qed.
(* ---- multiparts whose parts are in lines ---- *)
Definition in_lines (ls : list line) (p : bytes) : Prop := Forall good_line ls /\ Forall not_stopped ls /\ exists c, (c = [] \/ exists b, c = CRLF ++ b) /\ p = LineSpec.block_text ls ++ c.
Lemma all_parts_lines : forall E ps lss, env_ok E -> f_mime E = true -> debug E = false -> Forall2 in_lines lss ps ->
  (exists es, raw_entities E ps = Ok es /\ length es = length ps) \/
  (exists w ls x, raw_entities E ps = Err (Unknown w) /\ In ls lss /\ In x ls /\ same_nocase (fst x) (bs "Content-Transfer-Encoding")).
Proof.
  intros E ps lss HE HM HD H. induction H as [|ls p lss ps (G & S & c & C & ->) H IH]; [left; exists []; split; reflexivity|]. cbn [raw_entities].
  destruct (part_lines E ls c HE HM HD G S C) as [[e ->]|(w & x & -> & I & K)]; cbn [bind].
  - destruct IH as [(es & -> & L)|(w & ls' & x & -> & J & I & K)]; cbn [bind]; [left; exists (e :: es); split; [reflexivity|cbn; congruence]|right; exists w, ls', x; split; [reflexivity|]; split; [now right|auto]].
  - right. exists w, ls, x. split; [reflexivity|]. split; [now left|auto].
Qed.
Theorem multipart_lines : forall E b l lss epi text r, env_ok E -> f_mime E = true -> debug E = false -> ~ In 13 b -> rfc2046_body b l [] (Some epi) text -> Forall (fun y => fst y = []) l ->
  Forall2 (fun ls p => Forall good_line ls /\ Forall not_stopped ls /\ exists c, (c = [] \/ exists b, c = CRLF ++ b) /\ p = LineSpec.block_text ls ++ c) lss (map snd l) ->
  e_mime_type r = CMultipart -> map_get (e_parameters r) (bs "boundary") = Some b -> e_value r = text ->
  (exists es, entity E r = Ok (EMultipart (e_subtype r) es) /\ length es = length l) \/
  (exists w ls x, entity E r = Err (Unknown w) /\ In ls lss /\ In x ls /\ same_nocase (fst x) (bs "Content-Transfer-Encoding")).
Proof.
  intros E b l lss epi text r HE HM HD Hb B Pad H HT HB HV. pose proof (body_cut b Hb l epi text B) as C. rewrite (proj2 (merged_all b l Pad)) in C.
  pose proof (cut_parts_parse E b text (map snd l) (e_parameters r) HB C) as P. unfold entity. rewrite HT, HV, P.
  destruct (all_parts_lines E (map snd l) lss HE HM HD H) as [(es & -> & L)|(w & ls & x & -> & Q)]; cbn [bind]; [left; exists es; split; [reflexivity|now rewrite map_length in L]|right; exists w, ls, x; auto].
Qed.

(* C76: the parts of multiparts in lines, line by line. *)
From Coq Require Import Lia ZifyBool ZifyNat ZifyN.
From Verif Require Import SafetyProofs Base Utf8 CharSets Combinators Whitespace QuotedString Common Time Address MimeFields Fields Message Entity Email Envs
  Rfc5322 Rfc2047 Post CodecSpec RfcFields SoundBase SoundTime SoundAddr TagNoCase SoundFields EmailSpec SoundMessage EmailProofs MessageFacts Steps Complete CompleteFields Forward
  ForwardText ForwardMime ForwardFields ForwardMessage HeaderFacts LocalSpec Local LocalFacts KeptFacts Writers WriteFacts WriteAddr RegularSpec RegularFacts NeatFacts TidyFacts TraceFacts RangeFacts LinedFacts LessFacts LineSpec LineFacts LessExact
  KeenFacts ExactSpec RangeWrite PercentProofs ExactFacts MimeExactSpec MimeExactFields MultipartSpec EntitySpec EntityProofs CutSpec CutFacts TreeSpec TreeFacts PartExactSpec PartExactFacts RefuseSpec RefuseFacts RefuseParts TruncSpec TruncFacts ShownSpec ShownFacts NeverSpec NeverFacts MultipartRound Rfc2046Spec Rfc2046Facts ForwardParts NeverParts OrderFacts.
Local Open Scope N_scope.


Section Parts.
Variable E : env.
Hypothesis HE : env_ok E.
Hypothesis HM : f_mime E = true.
Hypothesis HD : debug E = false.
Lemma read_parts : forall ls i, Forall (part_legible E) ls -> bare i -> exists hs, Forall2 (fun x h => part_read E (LineSpec.line_text x) h) ls hs /\ steps (entity_header_parser E) (LineSpec.block_text ls ++ i) hs i.
Proof.
  intros ls i H Hi. induction H as [|x ls Hx H IH].
  - exists []. split; [constructor|]. destruct (part_header_none E i Hi) as [e X]. econstructor. exact X.
  - destruct IH as (hs & L & IH). assert (N : new_line (LineSpec.block_text ls ++ i)). { apply block_new_line; [eapply Forall_impl; [|exact H]; intros y [Y _]; exact Y|now apply bare_new_line]. }
    destruct Hx as [_ Hx]. pose proof (new_line_ends _ N) as W. destruct (Hx (LineSpec.block_text ls ++ i) W) as (h & F & _). exists (h :: hs). split.
    { constructor; [|exact L]. destruct (part_read_inv E HE HM HD _ _ _ F) as (c & X & G); [now apply ends_no_blank|]. apply app_inv_tail in X. now rewrite X. }
    change (LineSpec.block_text (x :: ls)) with (LineSpec.line_text x ++ LineSpec.block_text ls). rewrite <- app_assoc. econstructor; [exact F| |exact IH].
    rewrite app_length. unfold LineSpec.line_text. rewrite !app_length. cbn. lia.
Qed.
Lemma steps_part : forall c r hs b p, steps (entity_header_parser E) (c ++ r) hs r -> content_after r b -> raw_entity E (c ++ r) = Ok p -> part_of hs b p.
Proof.
  intros c r hs b p S Hb H. unfold raw_entity in H.
  assert (HP : header_part E (c ++ r) = Ok (length b, acc_of_headers hs)).
  { unfold header_part. rewrite (many_steps _ _ _ _ _ S). cbn [bind]. change header_acc0 with (acc_of_headers []). rewrite set_headers_spec. cbn [app].
    destruct Hb as [[-> ->]| ->]; [reflexivity|]. change (CRLF ++ b) with (13 :: 10 :: b). cbn [bind]. change (13 :: 10 :: b) with (CRLF ++ b). rewrite tag_app. reflexivity. }
  assert (X : exists y, c ++ r = y ++ b). { destruct Hb as [[-> ->]| ->]; [exists c; reflexivity|exists (c ++ CRLF); now rewrite <- app_assoc]. }
  rewrite HP in H. cbn [bind] in H. destruct X as [y X]. rewrite X in H. unfold usize_sub in H. rewrite app_length in H.
  destruct (Nat.ltb_spec (length y + length b) (length b)); [lia|]. cbn [bind] in H. replace (length y + length b - length b)%nat with (length y) in H by lia. rewrite index_from_app in H. cbn [bind] in H.
  cbn [acc_of_headers h_encoding h_type h_description h_id h_disposition h_additional] in H.
  change (match last_some of_type hs with Some x => x | None => default_content_type end) with (type_of (last_some of_type hs)) in H.
  change (match last_some of_encoding hs with Some e => e | None => SevenBit end) with (encoding_of (last_some of_encoding hs)) in H.
  destruct (type_of (last_some of_type hs)) as [[t s] q] eqn:T. destruct (decode_value E b (encoding_of (last_some of_encoding hs))) as [v|e|k] eqn:V; cbn [bind] in H; try discriminate.
  injection H as <-. apply transfer_iff in V. constructor; cbn; auto.
Qed.
Theorem part_by_line : forall ls r p, Forall good_line ls -> Forall not_stopped ls -> r = [] \/ (exists b, r = CRLF ++ b) -> raw_entity E (LineSpec.block_text ls ++ r) = Ok p ->
  exists hs b, Forall2 (fun x h => part_read E (LineSpec.line_text x) h) ls hs /\ content_after r b /\ part_of hs b p.
Proof.
  intros ls r p H HS B P. assert (HL : Forall (part_legible E) ls). { rewrite Forall_forall in *. intros x Hx. apply good_part; auto. }
  destruct (read_parts ls r HL B) as (hs & L & S). assert (C : exists b, content_after r b) by (destruct B as [->|[b ->]]; [exists []; left; auto|exists b; now right]).
  destruct C as [b C]. exists hs, b. split; [exact L|]. split; [exact C|]. eapply steps_part; eauto.
Qed.
Theorem part_by_line_back : forall ls r hs b v, r = [] \/ (exists b, r = CRLF ++ b) -> Forall2 (fun x h => part_read E (LineSpec.line_text x) h) ls hs -> content_after r b ->
  transfer_decoded (encoding_of (last_some of_encoding hs)) b v -> exists hs' p, raw_entity E (LineSpec.block_text ls ++ r) = Ok p /\ Forall2 same_header hs hs' /\ part_of hs' b p /\ e_value p = v.
Proof.
  intros ls r hs b v B L C V. assert (M : many_of (part_read E) (LineSpec.block_text ls) hs).
  { clear - L. induction L as [|x h ls hs X L IH]; [constructor|]. change (LineSpec.block_text (x :: ls)) with (LineSpec.line_text x ++ LineSpec.block_text ls). now constructor. }
  destruct (part_there E HE HM HD (LineSpec.block_text ls ++ r) hs b v) as (hs' & p & p' & P & S & _ & O & _ & W); [now exists (LineSpec.block_text ls), r|exact V|]. exists hs', p'. auto.
Qed.
End Parts.

(* C76: the mails in lines, line by line, with mime. *)
From Coq Require Import Lia ZifyBool ZifyNat ZifyN.
From Verif Require Import SafetyProofs Base Utf8 CharSets Combinators Whitespace QuotedString Common Time Address MimeFields Fields Message Entity Email Envs
  Rfc5322 Rfc2047 Post CodecSpec RfcFields SoundBase SoundTime SoundAddr TagNoCase SoundFields EmailSpec SoundMessage EmailProofs MessageFacts Steps Complete CompleteFields Forward
  ForwardText ForwardMime ForwardFields ForwardMessage HeaderFacts LocalSpec Local LocalFacts KeptFacts Writers WriteFacts WriteAddr RegularSpec RegularFacts NeatFacts TidyFacts TraceFacts RangeFacts LinedFacts LessFacts LineSpec LineFacts LessExact
  KeenFacts ExactSpec RangeWrite PercentProofs ExactFacts MimeExactSpec MimeExactFields TruncSpec TruncFacts ShownSpec ShownFacts NeverSpec NeverFacts MimeExactFacts ByLineSpec.
Local Open Scope N_scope.

Section Lines.
Variable E : env.
Hypothesis HE : env_ok E.
Hypothesis HM : f_mime E = true.
Hypothesis HD : debug E = false.
(* a header of the grammar, and the value that the parser gives it *)
Definition parsed (x : line) (f : field) : Prop := exists i, new_line i /\ any_field E (LineSpec.line_text x ++ i) = Ok (i, f).
Lemma parsed_read : forall x f, parsed x f -> mime_read E (LineSpec.line_text x) f.
Proof.
  intros x f (i & N & F). destruct (mime_read_inv E HE HM HD _ _ _ F) as (c & X & H); [apply ends_no_blank; now apply new_line_ends|]. apply app_inv_tail in X. now rewrite X.
Qed.
Lemma parsed_same : forall x f g, parsed x f -> mime_read E (LineSpec.line_text x) g -> same_field g f.
Proof.
  intros x f g (i & N & F) G. destruct (mime_read_forward E HE HM HD _ g i G) as (g' & X & S); [now apply new_line_ends|]. rewrite F in X. injection X as <-. exact S.
Qed.
Lemma parsed_steps : forall ls i, Forall (legible E) ls -> bare i -> exists fs, Forall2 parsed ls fs /\ steps (any_field E) (LineSpec.block_text ls ++ i) fs i.
Proof.
  intros ls i H Hi. induction H as [|x ls Hx H IH].
  - exists []. split; [constructor|]. destruct (any_field_bare E i Hi) as [e X]. econstructor. exact X.
  - destruct IH as (fs & L & IH). assert (N : new_line (LineSpec.block_text ls ++ i)). { apply block_new_line; [eapply Forall_impl; [|exact H]; intros y [Y _]; exact Y|now apply bare_new_line]. }
    destruct Hx as [_ Hx]. destruct (Hx (LineSpec.block_text ls ++ i)) as [f F]; [now apply new_line_ends|]. exists (f :: fs). split; [constructor; [now exists (LineSpec.block_text ls ++ i)|exact L]|].
    change (LineSpec.block_text (x :: ls)) with (LineSpec.line_text x ++ LineSpec.block_text ls). rewrite <- app_assoc. econstructor; [exact F| |exact IH].
    rewrite app_length. unfold LineSpec.line_text. rewrite !app_length. cbn. lia.
Qed.
Lemma parsed_message : forall ls r, Forall good_line ls -> Forall not_stopped ls -> (f_trace E = true -> untraced_start ls) -> r = [] \/ (exists b, r = CRLF ++ b) ->
  exists fs b, Forall2 parsed ls fs /\ rest_text r b /\ parse_message E (LineSpec.block_text ls ++ r) = Ok (fs, b).
Proof.
  intros ls r H HS HT B. assert (G : Forall proper_line ls) by (eapply Forall_impl; [|exact H]; intros y [Z _]; exact Z).
  assert (HL : Forall (legible E) ls). { rewrite Forall_forall in *. intros x Hx. apply mime_legible; auto. }
  destruct (parsed_steps ls r HL B) as (fs & L & S).
  assert (R : exists b, rest_text r b). { destruct B as [->|[b ->]]; [exists None; constructor|exists (Some b); constructor]. }
  destruct R as (b & R). exists fs, b. split; [exact L|]. split; [exact R|]. apply message_ok. exists r. split; [|split; [exact B|split; [exact R|congruence]]]. apply fields_of_steps; [exact HE| |exact S].
  intros T. apply no_starts_trace. apply start_no_trace; [exact G|now apply HT|]. destruct B as [->|[b' ->]]; [exact nil_no_trace|apply crlf_untraced].
Qed.
Lemma mime_left_of : forall ls fs, Forall proper_line ls -> Forall2 parsed ls fs -> mime_left_over E ls (EmailSpec.pick is_unknown fs).
Proof.
  intros ls fs P L. induction L as [|x f ls fs X L IH]; [constructor|]. inversion P as [|? ? Px P']; subst. specialize (IH P'). pose proof (parsed_read _ _ X) as XR.
  assert (D : (exists n v, f = FUnknown n v) \/ forall n v, f <> FUnknown n v) by (destruct f; try (right; discriminate); left; eauto).
  destruct D as [(n & v & ->)|D].
  - change (EmailSpec.pick is_unknown (FUnknown n v :: fs)) with ((n, v) :: EmailSpec.pick is_unknown fs).
    assert (K : n = fst x /\ clear_text_value (f_unrecognized_headers E) (textcode E) (snd x) v).
    { assert (G : exists t, LineSpec.line_text x = n ++ [58] ++ t ++ CRLF /\ chars1 rfc_ftext n /\ clear_text_value (f_unrecognized_headers E) (textcode E) t v).
      { clear - XR. remember (LineSpec.line_text x) as c eqn:Ec. clear Ec. remember (FUnknown n v) as f eqn:Ef. destruct XR as [c f C|n' t v' Hn Ht _ _]; [|injection Ef as -> ->; exists t; auto].
        destruct C as [c f C _|c f C| |]; try discriminate; destruct C; try discriminate. injection Ef as -> ->. match goal with K : clear_unknown _ _ _ |- _ => inversion K as [n' t v' Hn _ Ht E1 E2]; subst end. exists t. auto. }
      destruct G as (t & G & Hn & Ht). unfold LineSpec.line_text in G. change (bs ":") with [58] in G. destruct Px as [Hx _]. apply colon_unique in G as [Q1 Q2]; [|now apply LineFacts.ftext_no_colon|now apply LineFacts.ftext_no_colon].
      apply app_inv_tail in Q2. rewrite Q1, Q2. auto. }
    destruct K as [-> K]. apply mime_left_kept; [|exact K|exact IH]. intros g G. apply (mime_read_field E) in G. apply (parsed_same _ _ _ X) in G. apply MimeExactFields.same_unknown in G. eauto.
  - replace (EmailSpec.pick is_unknown (f :: fs)) with (EmailSpec.pick is_unknown fs); [|destruct f; try reflexivity; exfalso; eapply D; reflexivity].
    inversion XR as [c g C E1 E2|n' t v' Hn Ht _ _ E1 E2]; subst; [|exfalso; eapply D; reflexivity]. eapply mime_left_known; eauto.
Qed.
Theorem mime_by_line : forall ls r e, Forall good_line ls -> Forall not_stopped ls -> (f_trace E = true -> untraced_start ls) -> r = [] \/ (exists b, r = CRLF ++ b) ->
  parse E (LineSpec.block_text ls ++ r) = Ok e ->
  mime_left_over E ls (unknown_fields e) /\ exists fs b, Forall2 (fun x f => mime_read E (LineSpec.line_text x) f) ls fs /\ rest_text r b /\ email_of E fs b e.
Proof.
  intros ls r e H HS HT B P. destruct (parsed_message ls r H HS HT B) as (fs & b & L & R & M). apply (parse_iff_email E _ _ _ _ HE M) in P.
  assert (G : Forall proper_line ls) by (eapply Forall_impl; [|exact H]; intros y [Z _]; exact Z). split; [rewrite (of_unknown _ _ _ _ P); now apply mime_left_of|].
  exists fs, b. split; [|auto]. clear - HE HM HD L. induction L; constructor; [now apply parsed_read|assumption].
Qed.
Theorem mime_by_line_back : forall ls r fs b e, Forall good_line ls -> Forall not_stopped ls -> (f_trace E = true -> untraced_start ls) -> r = [] \/ (exists b, r = CRLF ++ b) ->
  Forall2 (fun x f => mime_read E (LineSpec.line_text x) f) ls fs -> rest_text r b -> email_of E fs b e ->
  exists fs' e', parse E (LineSpec.block_text ls ++ r) = Ok e' /\ Forall2 same_field fs fs' /\ email_of E fs' b e'.
Proof.
  intros ls r fs b e H HS HT B F R O. destruct (parsed_message ls r H HS HT B) as (gs & c & L & R' & M).
  assert (c = b) as -> by (destruct R; inversion R'; subst; try reflexivity; congruence).
  assert (S : Forall2 same_field fs gs). { clear - HE HM HD F L. revert gs L. induction F as [|x f ls fs X F IH]; intros gs L; inversion L; subst; constructor; [eapply parsed_same; eauto|now apply IH]. }
  destruct (acceptable_email E _ gs b HE M) as (e' & P & O'); [|eauto 6]. apply (acceptable_same E fs gs b S). eapply email_acceptable; eauto.
Qed.
End Lines.

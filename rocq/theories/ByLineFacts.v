(* C76: the mails in lines, line by line. *)
From Coq Require Import Lia ZifyBool ZifyNat ZifyN.
From Verif Require Import SafetyProofs Base Utf8 CharSets Combinators Whitespace QuotedString Common Time Address MimeFields Fields Message Entity Email Envs
  Rfc5322 Rfc2047 Post CodecSpec RfcFields SoundBase SoundTime SoundAddr TagNoCase SoundFields EmailSpec SoundMessage EmailProofs MessageFacts Steps Complete CompleteFields Forward
  ForwardText ForwardMime ForwardFields ForwardMessage HeaderFacts LocalSpec Local LocalFacts KeptFacts Writers WriteFacts WriteAddr RegularSpec RegularFacts NeatFacts TidyFacts TraceFacts RangeFacts LinedFacts LessFacts LineSpec LineFacts LessExact
  KeenFacts ExactSpec RangeWrite PercentProofs ExactFacts MimeExactSpec MimeExactFields TruncSpec TruncFacts ShownSpec ShownFacts NeverSpec NeverFacts ByLineSpec.
Local Open Scope N_scope.

Lemma unstructured_once : forall t v w, rfc_unstructured t v -> rfc_unstructured t w -> v = w.
Proof. intros t v w V W. apply (unstructured_forward t v []) in V; [|exact I]. apply (unstructured_forward t w []) in W; [|exact I]. congruence. Qed.
Section Lines.
Variable E : env.
Hypothesis HE : env_ok E.
Hypothesis HM : f_mime E = false.
Lemma by_line : forall x f i, new_line i -> any_field E (LineSpec.line_text x ++ i) = Ok (i, f) <-> field_read E (LineSpec.line_text x) f.
Proof. intros x f i Hi. now apply field_exact. Qed.
Lemma line_once : forall x f g, field_read E (LineSpec.line_text x) f -> field_read E (LineSpec.line_text x) g -> f = g.
Proof.
  intros x f g F G. assert (N : new_line []) by (apply bare_new_line; now left). apply (by_line x f [] N) in F. apply (by_line x g [] N) in G. congruence.
Qed.
Lemma lines_once : forall ls fs gs, Forall2 (fun x f => field_read E (LineSpec.line_text x) f) ls fs -> Forall2 (fun x f => field_read E (LineSpec.line_text x) f) ls gs -> fs = gs.
Proof.
  intros ls fs gs F. revert gs. induction F as [|x f ls fs X F IH]; intros gs G; inversion G; subst; [reflexivity|]. f_equal; [eapply line_once; eauto|now apply IH].
Qed.
Lemma read_steps : forall ls i, Forall (legible E) ls -> bare i -> exists fs, Forall2 (fun x f => field_read E (LineSpec.line_text x) f) ls fs /\ steps (any_field E) (LineSpec.block_text ls ++ i) fs i.
Proof.
  intros ls i H Hi. induction H as [|x ls Hx H IH].
  - exists []. split; [constructor|]. destruct (any_field_bare E i Hi) as [e X]. econstructor. exact X.
  - destruct IH as (fs & L & IH). assert (N : new_line (LineSpec.block_text ls ++ i)). { apply block_new_line; [eapply Forall_impl; [|exact H]; intros y [Y _]; exact Y|now apply bare_new_line]. }
    destruct Hx as [_ Hx]. destruct (Hx (LineSpec.block_text ls ++ i)) as [f F]; [now apply new_line_ends|]. exists (f :: fs). split; [constructor; [now apply (by_line x f _ N)|exact L]|].
    change (LineSpec.block_text (x :: ls)) with (LineSpec.line_text x ++ LineSpec.block_text ls). rewrite <- app_assoc. econstructor; [exact F| |exact IH].
    rewrite app_length. unfold LineSpec.line_text. rewrite !app_length. cbn. lia.
Qed.
Lemma read_message : forall ls r, Forall good_line ls -> (f_trace E = true -> untraced_start ls) -> body_part r ->
  exists fs b, Forall2 (fun x f => field_read E (LineSpec.line_text x) f) ls fs /\ rest_text r b /\ parse_message E (LineSpec.block_text ls ++ r) = Ok (fs, b).
Proof.
  intros ls r H HT Hr. destruct (body_part_bare r Hr) as (B & b & R & X). destruct (read_steps ls r (good_legible E ls HE HM H) B) as (fs & L & S). exists fs, b. split; [exact L|]. split; [exact R|].
  apply message_ok. exists r. split; [|split; [exact B|split; [exact R|intros _; exact X]]]. apply fields_of_steps; [exact HE| |exact S].
  intros T. apply no_starts_trace. apply start_no_trace; [eapply Forall_impl; [|exact H]; intros y [Y _]; exact Y|now apply HT|now apply body_part_untraced].
Qed.
Lemma rest_once : forall r b c, rest_text r b -> rest_text r c -> b = c.
Proof. intros r b c B C. destruct B; inversion C; subst; try reflexivity; congruence. Qed.
Theorem lines_exact : forall ls r e, Forall good_line ls -> (f_trace E = true -> untraced_start ls) -> body_part r ->
  parse E (LineSpec.block_text ls ++ r) = Ok e <-> exists fs b, Forall2 (fun x f => field_read E (LineSpec.line_text x) f) ls fs /\ rest_text r b /\ email_of E fs b e.
Proof.
  intros ls r e H HT Hr. destruct (read_message ls r H HT Hr) as (fs & b & L & R & M). rewrite (parse_iff_email E _ _ _ _ HE M). split; [eauto 6|].
  intros (gs & c & L' & R' & O). rewrite (lines_once _ _ _ L L'), (rest_once _ _ _ R R'). exact O.
Qed.
Lemma left_of : forall ls fs, Forall proper_line ls -> Forall2 (fun x f => field_read E (LineSpec.line_text x) f) ls fs -> left_over E ls (EmailSpec.pick is_unknown fs).
Proof.
  intros ls fs P L. induction L as [|x f ls fs X L IH]; [constructor|]. inversion P as [|? ? Px P']; subst. specialize (IH P').
  assert (HU : f_unrecognized_headers E = false). { destruct (f_unrecognized_headers E) eqn:U; [|reflexivity]. pose proof (ok_unrecognized E HE U). congruence. }
  assert (D : (exists n v, f = FUnknown n v) \/ forall n v, f <> FUnknown n v) by (destruct f; try (right; discriminate); left; eauto).
  destruct D as [(n & v & ->)|D].
  - change (EmailSpec.pick is_unknown (FUnknown n v :: fs)) with ((n, v) :: EmailSpec.pick is_unknown fs).
    assert (K : n = fst x /\ rfc_unstructured (snd x) v).
    { assert (G : exists t, LineSpec.line_text x = n ++ [58] ++ t ++ CRLF /\ chars1 rfc_ftext n /\ rfc_unstructured t v).
      { clear - X HU. remember (LineSpec.line_text x) as c eqn:Ec. clear Ec. remember (FUnknown n v) as f eqn:Ef. destruct X as [c f C|n' t v' Hn Ht _]; [|injection Ef as -> ->; exists t; auto].
        destruct C; try discriminate. injection Ef as -> ->. match goal with K : clear_unknown _ _ _ |- _ => inversion K as [n' t v' Hn _ Ht E1 E2]; subst end. rewrite HU in Ht. exists t. auto. }
      destruct G as (t & G & Hn & Ht). unfold LineSpec.line_text in G. change (bs ":") with [58] in G. destruct Px as [Hx _]. apply colon_unique in G as [Q1 Q2]; [|now apply LineFacts.ftext_no_colon|now apply LineFacts.ftext_no_colon].
      apply app_inv_tail in Q2. rewrite Q1, Q2. auto. }
    destruct K as [-> K]. apply left_kept; [|exact K|exact IH]. intros g G. rewrite <- (line_once _ _ _ X (read_clear E _ _ G)). eauto.
  - replace (EmailSpec.pick is_unknown (f :: fs)) with (EmailSpec.pick is_unknown fs); [|destruct f; try reflexivity; exfalso; eapply D; reflexivity].
    inversion X as [c g C E1 E2|n' t v' Hn Ht _ E1 E2]; subst; [|exfalso; eapply D; reflexivity]. eapply left_known; eauto.
Qed.
Theorem unknown_left : forall ls r e, Forall good_line ls -> (f_trace E = true -> untraced_start ls) -> body_part r ->
  parse E (LineSpec.block_text ls ++ r) = Ok e -> forall u, unknown_fields e = u <-> left_over E ls u.
Proof.
  intros ls r e H HT Hr P. apply (lines_exact ls r e H HT Hr) in P as (fs & b & L & _ & O).
  assert (G : Forall proper_line ls) by (eapply Forall_impl; [|exact H]; intros y [Z _]; exact Z). pose proof (left_of ls fs G L) as U. rewrite <- (of_unknown _ _ _ _ O) in U.
  intros u. split; [intros <-; exact U|]. intros V. 
  assert (Q : forall l u v, left_over E l u -> left_over E l v -> u = v).
  { clear. intros l u v A. revert v. induction A as [|x l u f F N A IH|x l u w F N A IH]; intros v B; inversion B as [|? ? ? g G M B'|? ? ? z G M B']; subst; [reflexivity|now apply IH| | |].
    - exfalso. destruct (G f F) as (n & q & ->). now apply (N n q).
    - exfalso. destruct (F g G) as (n & q & ->). now apply (M n q).
    - f_equal; [|now apply IH]. f_equal. eapply unstructured_once; eauto. }
  eapply Q; eauto.
Qed.
Theorem lines_same : forall ls ls' r e, Forall good_line ls -> Forall good_line ls' -> (f_trace E = true -> untraced_start ls /\ untraced_start ls') -> body_part r ->
  Forall2 (fun x y => exists f, field_read E (LineSpec.line_text x) f /\ field_read E (LineSpec.line_text y) f) ls ls' -> parse E (LineSpec.block_text ls ++ r) = Ok e <-> parse E (LineSpec.block_text ls' ++ r) = Ok e.
Proof.
  intros ls ls' r e H H' HT Hr S. rewrite (lines_exact ls r e H), (lines_exact ls' r e H'); [|intros T; now apply HT|exact Hr|intros T; now apply HT|exact Hr].
  assert (Q : exists fs, Forall2 (fun x f => field_read E (LineSpec.line_text x) f) ls fs /\ Forall2 (fun x f => field_read E (LineSpec.line_text x) f) ls' fs).
  { clear - S. induction S as [|x y l l' (f & F & G) S (fs & IH1 & IH2)]; [exists []; split; constructor|]. exists (f :: fs). split; constructor; auto. }
  destruct Q as (fs & Q1 & Q2). split; intros (gs & b & L & R & O); exists fs, b; [rewrite (lines_once _ _ _ Q1 L)|rewrite (lines_once _ _ _ Q2 L)]; (split; [|split; [exact R|exact O]]); [rewrite <- (lines_once _ _ _ Q1 L)|rewrite <- (lines_once _ _ _ Q2 L)]; assumption.
Qed.
End Lines.

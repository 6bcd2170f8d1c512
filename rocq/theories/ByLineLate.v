(* C76: the trace headers that come after another header. *)
From Coq Require Import Lia ZifyBool ZifyNat ZifyN.
From Verif Require Import SafetyProofs Base Utf8 CharSets Combinators Whitespace QuotedString Common Time Address MimeFields Fields Message Entity Email Envs
  Rfc5322 Rfc2047 Post CodecSpec RfcFields SoundBase SoundTime SoundAddr TagNoCase SoundFields EmailSpec SoundMessage EmailProofs MessageFacts Steps Complete CompleteFields Forward
  ForwardText ForwardMime ForwardFields ForwardMessage HeaderFacts LocalSpec Local LocalFacts KeptFacts Writers WriteFacts WriteAddr RegularSpec RegularFacts NeatFacts TidyFacts TraceFacts RangeFacts LinedFacts LessFacts LineSpec LineFacts LessExact
  KeenFacts ExactSpec RangeWrite PercentProofs ExactFacts MimeExactSpec MimeExactFields TruncSpec TruncFacts ShownSpec ShownFacts NeverSpec NeverFacts ByLineSpec ByLineFacts.
Local Open Scope N_scope.

(* no header of the grammar of a name has a name of trace *)
Lemma known_no_trace : forall f N name, kind f = Some N -> In name tracing -> same_nocase (bs N) (bs name) -> False.
Proof.
  intros f N name K I S. destruct f; try discriminate K; injection K as <-; cbn [tracing In] in I;
    repeat (destruct I as [<-|I]; [vm_compute in S; discriminate S|]); exact I.
Qed.
Lemma late_unknown : forall E x f, env_ok E -> f_mime E = false -> proper_line x -> trace_line x -> clear_field E (LineSpec.line_text x) f -> exists n v, f = FUnknown n v.
Proof.
  intros E x f HE HM [Hn _] (name & I & S) C. assert (N : new_line []) by (apply bare_new_line; now left).
  pose proof (proj2 (by_line E HE HM x f [] N) (read_clear E _ _ C)) as A. pose proof (any_field_not_trace _ _ _ _ A) as T. destruct (any_field_sound E _ _ _ HE A) as (c & Ec & F). rewrite !app_nil_r in Ec. subst c.
  unfold LineSpec.line_text in F. change (bs ":") with [58] in F. destruct (field_named E (fst x) _ f Hn F T) as [(d & v & -> & _)|(M & K & Q & _)]; [eauto|].
  exfalso. apply (known_no_trace f M name K I). unfold same_nocase in *. congruence.
Qed.
Lemma left_late : forall E ls u x, env_ok E -> f_mime E = false -> Forall good_line ls -> left_over E ls u -> In x ls -> trace_line x -> exists v, rfc_unstructured (snd x) v /\ In (fst x, v) u.
Proof.
  intros E ls u x HE HM G L. induction L as [|y ls u f F N L IH|y ls u v F N L IH]; intros I T; inversion G as [|? ? Gy G']; subst.
  - destruct I.
  - destruct I as [->|I]; [|now apply IH]. exfalso. destruct (late_unknown E x f HE HM (proj1 Gy) T F) as (n & v & ->). now apply (N n v).
  - destruct I as [->|I]; [exists v; split; [exact N|now left]|]. destruct (IH G' I T) as (w & W & J). exists w. split; [exact W|now right].
Qed.
Theorem late_trace : forall E, env_ok E -> f_mime E = false -> forall ls r e, Forall good_line ls -> (f_trace E = true -> untraced_start ls) -> body_part r ->
  parse E (LineSpec.block_text ls ++ r) = Ok e -> trace_of e = [] /\ forall x, In x ls -> trace_line x -> exists v, rfc_unstructured (snd x) v /\ In (fst x, v) (unknown_fields e).
Proof.
  intros E HE HM ls r e G HT Hr P. split; [|intros x; apply (left_late E ls); try assumption; now apply (unknown_left E HE HM ls r e G HT Hr P)].
  apply (lines_exact E HE HM ls r e G HT Hr) in P as (fs & b & L & _ & O). rewrite (of_trace _ _ _ _ O). clear - L HE HM.
  assert (N : new_line []) by (apply bare_new_line; now left). induction L as [|x f ls fs X L IH]; [reflexivity|].
  apply (by_line E HE HM x f [] N) in X. apply any_field_not_trace in X. unfold EmailSpec.pick in *. cbn [flat_map map concat]. destruct f; try discriminate X; exact IH.
Qed.

(* Property C76: a mail in lines is read line by line. *)
From Coq Require Import Lia.
From Verif Require Import Base Utf8 Time Address MimeFields Fields Message Entity Email Envs EnvOk Rfc5322 CodecSpec RfcFields CompleteFields EmailSpec LineSpec ExactSpec MimeExactSpec EntitySpec TreeSpec PartExactSpec OrderFacts NeverSpec ByLineSpec ByLineFacts ByLineMime ByLineParts ByLineLate.
Local Open Scope N_scope.
Ltac is_lined := match goal with |- lined ?t => let t' := eval vm_compute in t in change (lined t') end; repeat first [apply lined_nil|apply lined_fold; [unfold rfc_WSP; lia|]|apply lined_char; [unfold rfc_VCHAR, rfc_WSP; lia|]].
Ltac is_chars := split; [discriminate|]; unfold chars; match goal with |- Forall _ ?t => let t' := eval vm_compute in t in change (Forall rfc_ftext t') end; unfold rfc_ftext; repeat (apply Forall_cons; [lia|]); apply Forall_nil.
Ltac compute_all := lazymatch goal with |- _ /\ _ => split; compute_all | _ => vm_compute; reflexivity end.

(* ---- C76 ---- *)
(* the email is that of the headers that the lines are, each read on its own, and there is no other email *)
Theorem C76_lines : forall E, env_ok E -> f_mime E = false -> forall ls r e, Forall good_line ls -> (f_trace E = true -> untraced_start ls) -> body_part r ->
  parse E (block_text ls ++ r) = Ok e <-> exists fs b, Forall2 (fun x f => field_read E (line_text x) f) ls fs /\ rest_text r b /\ email_of E fs b e.
Proof. exact lines_exact. Qed.
Print Assumptions C76_lines.
(* its unknown headers are the lines that are no header of the grammar of their name, in order, with their own names and their texts unfolded *)
Theorem C76_unknown : forall E, env_ok E -> f_mime E = false -> forall ls r e, Forall good_line ls -> (f_trace E = true -> untraced_start ls) -> body_part r ->
  parse E (block_text ls ++ r) = Ok e -> forall u, unknown_fields e = u <-> left_over E ls u.
Proof. exact unknown_left. Qed.
Print Assumptions C76_unknown.
(* no trace is read from such a mail, and its trace headers, which come after another header, are all among the unknown headers *)
Theorem C76_late : forall E, env_ok E -> f_mime E = false -> forall ls r e, Forall good_line ls -> (f_trace E = true -> untraced_start ls) -> body_part r ->
  parse E (block_text ls ++ r) = Ok e -> trace_of e = [] /\ forall x, In x ls -> trace_line x -> exists v, rfc_unstructured (snd x) v /\ In (fst x, v) (unknown_fields e).
Proof. exact late_trace. Qed.
Print Assumptions C76_late.
(* lines that are the same headers can be put for each other *)
Theorem C76_same : forall E, env_ok E -> f_mime E = false -> forall ls ls' r e, Forall good_line ls -> Forall good_line ls' -> (f_trace E = true -> untraced_start ls /\ untraced_start ls') -> body_part r ->
  Forall2 (fun x y => exists f, field_read E (line_text x) f /\ field_read E (line_text y) f) ls ls' -> parse E (block_text ls ++ r) = Ok e <-> parse E (block_text ls' ++ r) = Ok e.
Proof. exact lines_same. Qed.
Print Assumptions C76_same.

Definition mixed : list line := [(bs "From", bs " a@b"); (bs "X-A", bs " 1"); (bs "dATE", bs " 5 May 2023 18:58 +0000"); (bs "To", bs " @@,:<"); (bs "X-A", bs " none" ++ CRLF ++ bs "  at all"); (bs "Received", bs " x; 5 May 2023 18:58:00 +0000"); (bs "Subject", bs " x")].
Definition mixed_too : list line := [(bs "fROM", bs " (me) a" ++ CRLF ++ bs " @b"); (bs "X-A", bs " 1"); (bs "Date", bs " 5 May 2023 18:58:00 +0000"); (bs "To", bs " @@,:<"); (bs "X-A", bs " none  at" ++ CRLF ++ bs " all"); (bs "Received", bs " x; 5 May 2023 18:58:00 +0000"); (bs "Subject", CRLF ++ bs " x")].
(* a Received header that comes too late is left over *)
Example C76_example : Forall good_line mixed /\ Forall good_line mixed_too /\ body_part [] /\
  exists e, parse env_default (block_text mixed) = Ok e /\ unknown_fields e = [(bs "X-A", bs " 1"); (bs "To", bs " @@,:<"); (bs "X-A", bs " none  at all"); (bs "Received", bs " x; 5 May 2023 18:58:00 +0000")] /\
  left_over env_default mixed (unknown_fields e).
Proof.
  assert (NB : forall t, existsb (fun k => match skipn k (t ++ CRLF) with 13 :: 10 :: r => existsb (fun j => andb (forallb (fun c => orb (c =? 32) (c =? 9)) (firstn j r)) (starts_with (skipn j r) CRLF)) (seq 1 (length r)) | _ => false end) (seq 0 (length (t ++ CRLF))) = false -> unblank t).
    { intros t H a w b X W. rewrite X in H. revert H. apply Bool.not_false_iff_true. apply existsb_exists. exists (length a). split.
      - apply in_seq. rewrite !app_length. cbn [length CRLF]. unfold bytes, byte in *. lia.
      - rewrite skipn_app, skipn_all, Nat.sub_diag. cbn [app skipn CRLF]. apply existsb_exists. exists (length w). destruct W as [W0 W]. split.
        + apply in_seq. rewrite !app_length. cbn [length]. destruct w; [congruence|]. cbn [length]. unfold bytes, byte in *. lia.
        + rewrite firstn_app, Nat.sub_diag, firstn_all, app_nil_r, skipn_app, skipn_all, Nat.sub_diag. apply andb_true_iff. split; [|destruct b; reflexivity]. apply forallb_forall. intros c Hc. unfold chars in W. rewrite Forall_forall in W. specialize (W c Hc). unfold rfc_WSP in W. apply orb_true_iff. rewrite !N.eqb_eq. exact W. }
  assert (G : Forall good_line mixed) by (unfold mixed; repeat (apply Forall_cons; [split; [split; [is_chars|is_lined]|apply NB; vm_compute; reflexivity]|]); apply Forall_nil).
  split; [exact G|]. split; [unfold mixed_too; repeat (apply Forall_cons; [split; [split; [is_chars|is_lined]|apply NB; vm_compute; reflexivity]|]); apply Forall_nil|]. split; [constructor|].
  assert (Q : exists e, parse env_default (block_text mixed ++ []) = Ok e /\ unknown_fields e = [(bs "X-A", bs " 1"); (bs "To", bs " @@,:<"); (bs "X-A", bs " none  at all"); (bs "Received", bs " x; 5 May 2023 18:58:00 +0000")]) by (eexists; compute_all).
  assert (T : untraced_start mixed) by (intros (name & I & K); cbn [tracing In] in I; repeat (destruct I as [<-|I]; [vm_compute in K; discriminate K|]); exact I).
  destruct Q as (e & P & U). exists e. pose proof P as P'. rewrite app_nil_r in P'. split; [exact P'|]. split; [exact U|].
  apply (C76_unknown env_default env_default_ok eq_refl mixed [] e G (fun _ => T) no_body P). reflexivity.
Qed.
(* the two mails give the same email *)
Example C76_example_same : exists e, parse env_default (block_text mixed) = Ok e /\ parse env_default (block_text mixed_too) = Ok e.
Proof. eexists. split; vm_compute; reflexivity. Qed.
(* with mime, where no header that the parser can stop in is folded, and for any body *)
Theorem C76_mime : forall E, env_ok E -> f_mime E = true -> debug E = false -> forall ls r e, Forall good_line ls -> Forall not_stopped ls -> (f_trace E = true -> untraced_start ls) -> r = [] \/ (exists b, r = CRLF ++ b) ->
  parse E (block_text ls ++ r) = Ok e ->
  mime_left_over E ls (unknown_fields e) /\ exists fs b, Forall2 (fun x f => mime_read E (line_text x) f) ls fs /\ rest_text r b /\ email_of E fs b e.
Proof. exact mime_by_line. Qed.
Print Assumptions C76_mime.
(* conversely the mail is accepted, and the email differs at most by the order of parameters *)
Theorem C76_mime_back : forall E, env_ok E -> f_mime E = true -> debug E = false -> forall ls r fs b e, Forall good_line ls -> Forall not_stopped ls -> (f_trace E = true -> untraced_start ls) -> r = [] \/ (exists b, r = CRLF ++ b) ->
  Forall2 (fun x f => mime_read E (line_text x) f) ls fs -> rest_text r b -> email_of E fs b e ->
  exists fs' e', parse E (block_text ls ++ r) = Ok e' /\ Forall2 same_field fs fs' /\ email_of E fs' b e'.
Proof. exact mime_by_line_back. Qed.
Print Assumptions C76_mime_back.
(* the lines of the first example, with mime; the theorem gives the reading that the converse asks for *)
Example C76_example_mime : Forall good_line mixed /\ Forall not_stopped mixed /\ exists e, parse env_mime (block_text mixed ++ CRLF ++ bs "hello") = Ok e /\
  unknown_fields e = [(bs "X-A", bs " 1"); (bs "To", bs " @@,:<"); (bs "X-A", bs " none  at all"); (bs "Received", bs " x; 5 May 2023 18:58:00 +0000")] /\ mime_left_over env_mime mixed (unknown_fields e).
Proof.
  destruct C76_example as (G & _). split; [exact G|]. assert (S : Forall not_stopped mixed).
  { unfold mixed. repeat (apply Forall_cons; [intros K; exfalso; destruct K as (name & I & K); cbn [stopping In] in I; repeat (destruct I as [<-|I]; [vm_compute in K; discriminate K|]); exact I|]). apply Forall_nil. }
  split; [exact S|]. assert (T : untraced_start mixed) by (intros (name & I & K); cbn [tracing In] in I; repeat (destruct I as [<-|I]; [vm_compute in K; discriminate K|]); exact I).
  assert (Q : exists e, parse env_mime (block_text mixed ++ CRLF ++ bs "hello") = Ok e /\ unknown_fields e = [(bs "X-A", bs " 1"); (bs "To", bs " @@,:<"); (bs "X-A", bs " none  at all"); (bs "Received", bs " x; 5 May 2023 18:58:00 +0000")]) by (eexists; compute_all).
  destruct Q as (e & P & U). exists e. split; [exact P|]. split; [exact U|]. exact (proj1 (C76_mime env_mime env_mime_ok eq_refl eq_refl mixed _ e G S (fun _ => T) (or_intror (ex_intro _ _ eq_refl)) P)).
Qed.
(* the parts of multiparts *)
Theorem C76_part : forall E, env_ok E -> f_mime E = true -> debug E = false -> forall ls r p, Forall good_line ls -> Forall not_stopped ls -> r = [] \/ (exists b, r = CRLF ++ b) -> raw_entity E (block_text ls ++ r) = Ok p ->
  exists hs b, Forall2 (fun x h => part_read E (line_text x) h) ls hs /\ content_after r b /\ part_of hs b p.
Proof. exact part_by_line. Qed.
Print Assumptions C76_part.
Theorem C76_part_back : forall E, env_ok E -> f_mime E = true -> debug E = false -> forall ls r hs b v, r = [] \/ (exists b, r = CRLF ++ b) -> Forall2 (fun x h => part_read E (line_text x) h) ls hs -> content_after r b ->
  transfer_decoded (encoding_of (last_some of_encoding hs)) b v -> exists hs' p, raw_entity E (block_text ls ++ r) = Ok p /\ Forall2 same_header hs hs' /\ part_of hs' b p /\ e_value p = v.
Proof. exact part_by_line_back. Qed.
Print Assumptions C76_part_back.
(* all the lines of the first example are other headers of a part, and all are kept *)
Example C76_example_part : exists p hs b, raw_entity env_mime (block_text mixed ++ CRLF ++ bs "hello") = Ok p /\ length (e_additional_headers p) = 7%nat /\ e_value p = bs "hello" /\
  Forall2 (fun x h => part_read env_mime (line_text x) h) mixed hs /\ content_after (CRLF ++ bs "hello") b /\ part_of hs b p.
Proof.
  destruct C76_example_mime as (G & S & _).
  assert (Q : exists p, raw_entity env_mime (block_text mixed ++ CRLF ++ bs "hello") = Ok p /\ length (e_additional_headers p) = 7%nat /\ e_value p = bs "hello") by (eexists; compute_all).
  destruct Q as (p & P & N & V). destruct (C76_part env_mime env_mime_ok eq_refl eq_refl mixed _ p G S (or_intror (ex_intro _ _ eq_refl)) P) as (hs & b & L & C & O). exists p, hs, b. auto 8.
Qed.

(* Properties C03, C04, C41, C42: where the crate stops short of what one could expect. *)
From Coq Require Import Lia.
From Verif Require Import Base Utf8 Combinators Whitespace Time Address Percent MimeFields Fields Message Email Envs EnvOk Rfc5322 RfcFields EmailSpec Complete CompleteFields Writers ParamSpec LimitFacts
  RegularSpec RegularFacts TidyFacts TraceFacts LessSpec LineSpec LessExact.
Ltac compute_all := lazymatch goal with |- _ /\ _ => split; compute_all | _ => vm_compute; reflexivity end.

(* ---- C03: a panic of overflow-checked builds ---- *)
Theorem C03_no_panic_refuted : forall E, env_ok E -> debug E = true -> f_mime E = true ->
  exists data, parse E data = Crash (Panic "attempt to add with overflow").
Proof. exact panic_exists. Qed.
Print Assumptions C03_no_panic_refuted.
(* every mail with such a header, wherever it is among readable headers *)
Theorem C03_every_overlong_parameter : forall E c1 t c2 l d, debug E = true -> f_mime E = true -> an_order (hash_order E) ->
  clear_blocks E c1 t -> (f_trace E = true \/ t = []) -> many_of (clear_field E) c2 l -> overlong_header E d ->
  parse E (c1 ++ c2 ++ d) = Crash (Panic "attempt to add with overflow").
Proof. exact parse_panic. Qed.
Print Assumptions C03_every_overlong_parameter.
Example C03_example : env_ok env_all_debug /\ debug env_all_debug = true /\ f_mime env_all_debug = true /\ overlong (overlong_raw (bs "a") 0 (repeat (bs "b") 256)).
Proof. split; [exact env_all_debug_ok|]. split; [reflexivity|]. split; [reflexivity|]. apply overlong_is. apply repeat_length. Qed.

(* ---- C04: recursion depth ---- *)
(* comment_d d is the comment parser when at most d calls may be nested *)
Theorem C04_bounded_depth_refuted : forall E d, env_ok E -> f_from E = true -> f_date E = true ->
  exists data e v, parse E data = Ok e /\ data = bs "From: " ++ v /\ comment_d d v = Crash OutOfFuel /\ exists r, comment v = Ok (r, []).
Proof. exact no_depth_bound. Qed.
Print Assumptions C04_bounded_depth_refuted.
Theorem C04_depth_is_bounded_by_nesting : forall i, comment_d (S (opens i)) i = comment i.
Proof. exact comment_depth. Qed.
Print Assumptions C04_depth_is_bounded_by_nesting.
Example C04_example : comment_d 4 (bs "(((x)))y") = comment (bs "(((x)))y") /\ comment (bs "(((x)))y") = Ok (bs "y", []) /\ comment_d 2 (bs "(((x)))y") = Crash OutOfFuel
  /\ opens (bs "(((x)))y") = 3%nat.
Proof. compute_all. Qed.

(* ---- C41: completeness ---- *)
(* every header of the grammar that is regular is recognised, with the value it denotes up to
   the cutting of words; what [regular] excludes is settled by
   C41_structured_exact and C53 *)
Theorem C41_regular_header : forall E c f i, env_ok E -> field_text E c f -> regular E c f -> no_blank i ->
  exists f', any_field E (c ++ i) = Ok (i, f') /\ alike f f'.
Proof. exact header_recognised. Qed.
Print Assumptions C41_regular_header.
(* without "=?", a structured header of the grammar is recognised exactly if no blank comes right
   before its line end, except after a fold *)
Theorem C41_recognised_iff_tidy : forall E c f i, env_ok E -> field_text E c f -> structured_kind f -> unmarked (f_mime E) c -> no_blank i ->
  (exists f', any_field E (c ++ i) = Ok (i, f') /\ alike f f') <-> tidy_line c.
Proof. exact recognised_iff_tidy. Qed.
Print Assumptions C41_recognised_iff_tidy.
(* whole messages: trace blocks, then headers, then the body *)
Theorem C41_regular_message : forall E c1 t c2 fs c3 b, env_ok E -> regular_blocks E c1 t -> (f_trace E = true \/ t = []) -> regular_fields E c2 fs -> rest_text c3 b ->
  (f_mime E = false -> forall t, b = Some t -> body_text t) ->
  exists fs', parse_message E (c1 ++ c2 ++ c3) = Ok (fs', b) /\ Forall2 matching (t ++ fs) fs'.
Proof. exact messages_recognised. Qed.
Print Assumptions C41_regular_message.
(* the regular trace blocks are blocks of the grammar *)
Theorem C41_regular_block_text : forall E c f, f_trace E = true -> regular_block E c f -> field_text E c f.
Proof. exact regular_block_text. Qed.
Print Assumptions C41_regular_block_text.
Definition named_from : bytes := bs "From: (x)" ++ CRLF ++ bs " Ann " ++ [34]%N ++ bs "B." ++ [34]%N ++ bs "Cee <a@b.c>" ++ CRLF.
Example C41_example : env_ok env_default
  /\ field_text env_default date_line (FDate some_time) /\ regular env_default date_line (FDate some_time) /\ no_blank named_from
  /\ any_field env_default (date_line ++ named_from) = Ok (named_from, FDate some_time)
  /\ any_field env_default (named_from ++ date_line) = Ok (date_line, FFrom [{| m_name := Some [bs "Ann"; bs "B."; bs "Cee"]; m_address := {| a_local_part := bs "a"; a_domain := bs "b.c" |} |}]).
Proof. split; [exact env_default_ok|]. split; [now apply date_line_regular|]. split; [now apply date_line_regular|]. split; [intros c r [= <- _]; unfold rfc_WSP; lia|]. compute_all. Qed.
Example C41_message_example : env_ok env_default /\ f_trace env_default = true /\ regular_blocks env_default some_received [FTrace None [(some_tokens, some_time)] []]
  /\ regular_fields env_default (date_line ++ []) [FDate some_time] /\ rest_text (CRLF ++ bs "hi") (Some (bs "hi"))
  /\ parse_message env_default (some_received ++ (date_line ++ []) ++ CRLF ++ bs "hi")
    = Ok ([FTrace None [([RWord (bs "by"); RAddr {| a_local_part := bs "a"; a_domain := bs "b.c" |}; RWord (bs "cd")], some_time)] []; FDate some_time], Some (bs "hi")).
Proof.
  split; [exact env_default_ok|]. split; [reflexivity|]. split; [apply some_received_regular|]. split; [constructor; [now apply date_line_regular|now apply date_line_regular|constructor]|]. split; [constructor|]. compute_all.
Qed.
(* without these conditions the claim is false: a blank before the line end of a From header
   makes a conforming, otherwise acceptable mail be refused *)
Theorem C41_mail_refuted : forall E, In E [env_default; env_mime; env_all_debug] ->
  exists data fs, message_text E data fs None /\ acceptable E fs None /\ exists e, parse E data = Err e.
Proof. exact untidy_rejected. Qed.
Print Assumptions C41_mail_refuted.
Theorem C41_blank_at_end_refuted : forall E, f_from E = true ->
  exists c l, field_text E c (FFrom l) /\ any_field E (c ++ date_line) = Ok (date_line, FUnknown (bs "From") (bs " a@b.c")).
Proof. exact untidy_header. Qed.
Print Assumptions C41_blank_at_end_refuted.
(* RFC 5322 3.6.3 allows an empty Bcc *)
Theorem C41_empty_bcc_unrecognised : forall E, any_field E (empty_bcc ++ date_line) = Ok (date_line, FUnknown (bs "Bcc") []).
Proof. exact empty_bcc_unrecognised. Qed.
Print Assumptions C41_empty_bcc_unrecognised.
(* RFC 5322 3.6.7 allows a bare address in a Received header *)
Theorem C41_received_address_refuted : forall E,
  exists c l d, rfc_header "Received" (rfc_received (f_compatibility_fixes E)) c (l, d) /\ exists e, trace_block E (c ++ date_line) = Err e.
Proof. exact addr_received_header. Qed.
Print Assumptions C41_received_address_refuted.
Example C41_refuted_example : any_field env_default (untidy_from ++ date_line) = Ok (date_line, FUnknown (bs "From") (bs " a@b.c"))
  /\ any_field env_default (bs "From: a@b.c" ++ CRLF ++ date_line) = Ok (date_line, FFrom [someone]).
Proof. compute_all. Qed.

(* ---- C42: switching a feature off ---- *)
Theorem C42_feature_off_refuted : forall E, In E [env_default; env_mime; env_all_debug] ->
  env_ok E /\ env_ok (without_bcc E) /\ (exists e, parse E folded_bcc = Ok e /\ bcc e = Some []) /\ exists e, parse (without_bcc E) folded_bcc = Err e.
Proof. exact folded_bcc_needs_feature. Qed.
Print Assumptions C42_feature_off_refuted.
(* a mail accepted by a build is accepted by a build with fewer header features exactly if no
   header whose name is not known to it has a line of blanks only *)
Theorem C42_feature_off_exact : forall E E' ls r e, env_ok E -> env_ok E' -> fewer E' E -> Forall proper_line ls -> (r = [] \/ exists t, r = CRLF ++ t) -> parse E (block_text ls ++ r) = Ok e ->
  (exists e', parse E' (block_text ls ++ r) = Ok e') <-> (forall n t, In (n, t) ls -> (forall name, In name (known_names E') -> ~ same_nocase n (bs name)) -> unblank t).
Proof. exact email_less_exact. Qed.
Print Assumptions C42_feature_off_exact.
(* the body, the MIME entity and the headers that are still interpreted are then the same, and
   the other headers are unknown headers *)
Theorem C42_feature_off_result : forall E E' ls r e, env_ok E -> env_ok E' -> fewer E' E -> Forall proper_line ls -> (r = [] \/ exists t, r = CRLF ++ t) -> parse E (block_text ls ++ r) = Ok e ->
  (forall n t, In (n, t) ls -> (forall name, In name (known_names E') -> ~ same_nocase n (bs name)) -> unblank t) ->
  exists e' b fs fs', rest_text r b /\ demoted E E' (block_text ls) fs fs' /\ email_of E fs b e /\ email_of E' fs' b e' /\ parse E' (block_text ls ++ r) = Ok e' /\ poorer E' e e'.
Proof. exact email_less_lines. Qed.
Print Assumptions C42_feature_off_result.
(* every accepted mail is a text as above *)
Theorem C42_every_mail : forall E data e, env_ok E -> parse E data = Ok e -> exists ls r, data = block_text ls ++ r /\ Forall proper_line ls /\ (r = [] \/ exists t, r = CRLF ++ t).
Proof. exact accepted_lines. Qed.
Print Assumptions C42_every_mail.
(* with a folded blank line in the To header, which both builds interpret *)
Definition traced_lines : list line :=
  [(bs "Return-Path", bs " <>"); (bs "Received", bs " x;" ++ CRLF ++ bs " 1 Jan 2020 00:00 +0000"); (bs "From", bs " a@b.c"); (bs "Date", bs " 1 Jan 2020 10:00 +0000"); (bs "X", bs " 1"); (bs "Bcc", bs " x@y"); (bs "To", bs " q@r" ++ CRLF ++ bs "  ")].
Ltac is_lined := match goal with |- lined ?t => let t' := eval vm_compute in t in change (lined t') end; repeat first [apply lined_nil|apply lined_fold; [unfold rfc_WSP; lia|]|apply lined_char; [unfold rfc_VCHAR, rfc_WSP; lia|]].
Ltac is_chars := split; [discriminate|]; unfold chars; match goal with |- Forall _ ?t => let t' := eval vm_compute in t in change (Forall rfc_ftext t') end; unfold rfc_ftext; repeat (apply Forall_cons; [lia|]); apply Forall_nil.
Example C42_example : env_ok env_default /\ env_ok env_to /\ fewer env_to env_default /\ Forall proper_line traced_lines
  /\ (forall n t, In (n, t) traced_lines -> (forall name, In name (known_names env_to) -> ~ same_nocase n (bs name)) -> unblank t)
  /\ (exists e, parse env_default (block_text traced_lines ++ CRLF ++ bs "Hey") = Ok e /\ bcc e <> None /\ unknown_fields e = [(bs "X", bs " 1")] /\ length (trace_of e) = 1%nat)
  /\ exists e, parse env_to (block_text traced_lines ++ CRLF ++ bs "Hey") = Ok e /\ bcc e = None /\ trace_of e = [] /\ body_of e = Some (bs "Hey") /\ to e <> None
     /\ unknown_fields e = [(bs "Return-Path", bs " <>"); (bs "Received", bs " x; 1 Jan 2020 00:00 +0000"); (bs "From", bs " a@b.c"); (bs "Date", bs " 1 Jan 2020 10:00 +0000"); (bs "X", bs " 1"); (bs "Bcc", bs " x@y")].
Proof.
  split; [exact env_default_ok|]. split; [exact env_to_ok|]. split; [constructor; first [discriminate|reflexivity]|].
  split; [|split].
  - unfold traced_lines. do 7 (apply Forall_cons; [split; [is_chars|is_lined]|]); apply Forall_nil.
  - intros n t H HN. cbn [traced_lines In] in H. repeat (destruct H as [H|H]; [injection H as <- <-; first [apply unblank_b; vm_compute; reflexivity|exfalso; apply (HN "To"%string); [cbn; tauto|reflexivity]]|]). destruct H.
  - split; eexists; [split; [vm_compute; reflexivity|]; split; [discriminate|]; compute_all|].
    split; [vm_compute; reflexivity|]. split; [reflexivity|]. split; [reflexivity|]. split; [reflexivity|]. split; [discriminate|reflexivity].
Qed.

(* Property C55: builds with and without overflow checks. *)
From Coq Require Import Permutation Lia.
From Verif Require Import Base Base64 QuotedPrintable Utf8 CharSets Combinators Percent MimeFields Fields Message Entity Email Envs EnvOk EmailSpec ParamSpec RegularSpec
  ExactSpec PhraseSpec MimeExactSpec DebugSpec DebugFacts DebugPanic DebugMore.
Ltac compute_all := lazymatch goal with |- _ /\ _ => split; compute_all | _ => vm_compute; reflexivity end.

(* ---- C55 ---- *)
(* what a build with overflow checks returns, be it an error, the build without them returns too *)
Theorem C55_parse : forall E data, unless_crash (parse E data) (parse (release E) data).
Proof. exact parse_un. Qed.
Print Assumptions C55_parse.
Theorem C55_parse_message : forall E data, unless_crash (parse_message E data) (parse_message (release E) data).
Proof. exact parse_message_un. Qed.
Print Assumptions C55_parse_message.
Theorem C55_raw_entity : forall E data, unless_crash (raw_entity E data) (raw_entity (release E) data).
Proof. exact raw_entity_un. Qed.
Print Assumptions C55_raw_entity.
Theorem C55_entity : forall E r, unless_crash (entity E r) (entity (release E) r).
Proof. exact entity_un. Qed.
Print Assumptions C55_entity.
Theorem C55_header : forall E data, unless_crash (any_field E data) (any_field (release E) data).
Proof. exact any_field_un. Qed.
Print Assumptions C55_header.
Theorem C55_codecs : forall E data, decode_base64 E data = decode_base64 (release E) data /\ decode_qp E data = decode_qp (release E) data
  /\ unless_crash (encode_base64 E data) (encode_base64 (release E) data) /\ unless_crash (encode_qp E data) (encode_qp (release E) data).
Proof. exact codecs_same. Qed.
Print Assumptions C55_codecs.
(* it panics only if the parameters of a Content-Type or Content-Disposition header in the text contain one in 256 segments *)
Theorem C55_panic : forall E data k, env_ok E -> parse E data = Crash k -> has_full_header data.
Proof. exact parse_panic_full. Qed.
Print Assumptions C55_panic.
Theorem C55_raw_entity_panic : forall E data k, env_ok E -> raw_entity E data = Crash k -> has_full_header data.
Proof. exact raw_entity_panic_full. Qed.
Print Assumptions C55_raw_entity_panic.
Theorem C55_entity_panic : forall E r k, env_ok E -> entity E r = Crash k -> e_mime_type r = CMultipart /\ has_full_header (e_value r).
Proof. exact entity_panic_full. Qed.
Print Assumptions C55_entity_panic.
Theorem C55_full_is_long : forall data, has_full_header data -> 256 <= semicolons data.
Proof. exact full_semicolons. Qed.
Print Assumptions C55_full_is_long.
(* so a text with at most 255 semicolons is read in the same way in both builds *)
Theorem C55_same : forall E data, env_ok E -> semicolons data < 256 -> parse E data = parse (release E) data.
Proof. exact parse_same. Qed.
Print Assumptions C55_same.
Theorem C55_entity_same : forall E r, env_ok E -> semicolons (e_value r) < 256 -> entity E r = entity (release E) r.
Proof. exact entity_same. Qed.
Print Assumptions C55_entity_same.
Theorem C55_without_mime : forall E data, env_ok E -> f_mime E = false -> parse E data = parse (release E) data.
Proof. exact parse_nomime_same. Qed.
Print Assumptions C55_without_mime.
(* what C01, C35 and C53 say about builds without overflow checks, for those with them *)
Theorem C55_total : forall E data, env_ok E -> semicolons data < 256 -> (exists e, parse E data = Ok e) \/ (exists err, parse E data = Err err).
Proof. exact parse_debug_total. Qed.
Print Assumptions C55_total.
Theorem C55_exact : forall E, env_ok E -> f_mime E = true -> forall data, semicolons data < 256 ->
  (exists e, parse E data = Ok e) <-> exists fs b e, mime_message_read (release E) data fs b /\ email_of (release E) fs b e.
Proof. exact parse_debug_exact. Qed.
Print Assumptions C55_exact.
Theorem C55_order : forall E h h' data, env_ok E -> semicolons data < 256 -> an_order h -> an_order h' ->
  same_result same_email (parse (with_order E h) data) (parse (with_order E h') data).
Proof. exact parse_debug_order. Qed.
Print Assumptions C55_order.
(* without that bound a build with overflow checks need not do the same in every run: the order of a hash map decides whether it panics *)
Theorem C55_order_refuted : exists E h h' data e, env_ok E /\ an_order h /\ an_order h' /\
  parse (with_order E h) data = Ok e /\ parse (with_order E h') data = Crash (Panic "attempt to add with overflow").
Proof. exact torn_orders. Qed.
Print Assumptions C55_order_refuted.
Definition ex_two : bytes :=
  bs "From: a@b.c" ++ CRLF ++ bs "Date: 1 Jan 2020 10:00 +0000" ++ CRLF ++ bs "Content-Type: text/plain; a*0=x; a*1=y" ++ CRLF ++ CRLF ++ bs "b".
Example C55_example : debug env_all_debug = true /\ debug (release env_all_debug) = false /\ semicolons ex_two = 2 /\ semicolons torn_mail = 257 /\
  (exists e, parse env_all_debug ex_two = Ok e /\ parse (release env_all_debug) ex_two = Ok e) /\
  parse (with_order env_all_debug (@rev bytes)) torn_mail = Crash (Panic "attempt to add with overflow") /\
  (exists e, parse (release (with_order env_all_debug (@rev bytes))) torn_mail = Ok e).
Proof.
  split; [reflexivity|]. split; [reflexivity|]. split; [vm_compute; reflexivity|]. split; [vm_compute; reflexivity|]. split; [eexists; compute_all|]. split; [vm_compute; reflexivity|].
  eexists. vm_compute. reflexivity.
Qed.

(* Properties C01, C02: totality and memory safety. *)
From Coq Require Import Permutation.
From Verif Require Import Base Utf8 Combinators MimeFields Fields Message Entity Email Envs EnvOk EmailSpec SafetyProofs.

(* ---- C01 ---- *)
(* [Crash] is a panic, an out-of-range unchecked access, a str made of invalid UTF-8, or a loop
   that exceeds the bound of terminating executions. *)
Theorem C01_parse_total : forall E data, env_ok E -> debug E = false \/ f_mime E = false ->
  (exists e, parse E data = Ok e) \/ (exists err, parse E data = Err err).
Proof. exact parse_total. Qed.
Print Assumptions C01_parse_total.
Example C01_example : env_ok env_mime /\ debug env_mime = false /\ env_ok env_all_debug /\
  (exists e, parse env_mime (bs "From: a@b.c" ++ CRLF ++ bs "Date: 5 May 2003 18:58:34 +0000" ++ CRLF ++ CRLF ++ [200; 0]%N) = Ok e) /\
  (exists err, parse env_default ([255; 0; 13; 10; 40; 40]%N) = Err err).
Proof.
  split; [exact env_mime_ok|]. split; [reflexivity|]. split; [exact env_all_debug_ok|].
  split; eexists; vm_compute; reflexivity.
Qed.

(* a checked build with mime: the only possible crash is one particular overflow panic *)
Theorem C01_checked_build : forall E data c, env_ok E -> parse E data = Crash c ->
  debug E = true /\ f_mime E = true /\ c = Panic "attempt to add with overflow".
Proof. exact parse_crash. Qed.
Print Assumptions C01_checked_build.

(* the raw message parser (parsing::message::parse_message) is total under the same conditions *)
Theorem C01_parse_message_total : forall E data, env_ok E -> debug E = false \/ f_mime E = false ->
  (exists r, parse_message E data = Ok r) \/ (exists err, parse_message E data = Err err).
Proof. exact parse_message_total. Qed.
Print Assumptions C01_parse_message_total.

(* ---- C02 ---- *)
Theorem C02_entity_total : forall E r, env_ok E -> debug E = false ->
  (exists e, entity E r = Ok e) \/ (exists err, entity E r = Err err).
Proof. exact entity_total. Qed.
Print Assumptions C02_entity_total.
Theorem C02_raw_entity_total : forall E i, env_ok E -> debug E = false ->
  (exists e, raw_entity E i = Ok e) \/ (exists err, raw_entity E i = Err err).
Proof. exact raw_entity_total. Qed.
Print Assumptions C02_raw_entity_total.
Theorem C02_checked_build : forall E r c, env_ok E -> entity E r = Crash c ->
  debug E = true /\ c = Panic "attempt to add with overflow".
Proof. exact entity_crash. Qed.
Print Assumptions C02_checked_build.
Example C02_example : env_ok env_mime /\ debug env_mime = false /\
  entity env_mime {| e_mime_type := CMultipart; e_subtype := bs "mixed"; e_description := None; e_id := None;
    e_parameters := [(bs "boundary", [])]; e_disposition := None; e_value := bs "--" ++ CRLF ++ CRLF ++ bs "----" ++ CRLF;
    e_additional_headers := [] |} = Ok (EMultipart (bs "mixed")
      [{| e_mime_type := CText; e_subtype := bs "plain"; e_description := None; e_id := None;
          e_parameters := [(bs "charset", bs "us-ascii")]; e_disposition := None; e_value := []; e_additional_headers := [] |}]).
Proof. split; [exact env_mime_ok|]. split; reflexivity. Qed.

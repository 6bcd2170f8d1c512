(* Properties C32, C46: the strings of an email. *)
From Coq Require Import Lia.
From Verif Require Import Base Utf8 Time Address MimeFields Fields Entity Email Envs EnvOk Rfc5322 Writers TextSpec TextFacts.
Ltac compute_all := lazymatch goal with |- _ /\ _ => split; compute_all | _ => vm_compute; reflexivity end.

(* ---- C32: valid text ---- *)
Theorem C32_utf8 : forall E data e, env_ok E -> parse E data = Ok e -> Forall (fun v => utf8_valid v = true) (email_texts e ++ email_strings e).
Proof. exact email_utf8. Qed.
Print Assumptions C32_utf8.
Theorem C32_ascii : forall E data e, env_ok E -> f_mime E = false -> parse E data = Ok e ->
  Forall (chars (fun c => c < 128)%N) (email_texts e ++ email_strings e).
Proof. exact email_ascii. Qed.
Print Assumptions C32_ascii.
Theorem C32_parts : forall E data r, env_ok E -> raw_entity E data = Ok r ->
  Forall (fun v => utf8_valid v = true) (entity_texts r) /\ Forall (chars printable) (entity_strings r).
Proof. exact entity_strings_ok. Qed.
Print Assumptions C32_parts.
Theorem C32_entities : forall E r t, env_ok E -> utf8_valid (e_subtype r) = true -> entity E r = Ok t ->
  Forall (fun v => utf8_valid v = true) (parsed_strings t).
Proof. exact parsed_strings_ok. Qed.
Print Assumptions C32_entities.
Definition mail_utf8 : bytes := bs "From: =?utf-8?q?Zo=C3=AB?= Smith <zoe@x.org>" ++ CRLF ++ bs "Date: 1 Jan 2020 10:00 +0000" ++ CRLF ++ bs "Subject: a" ++ CRLF ++ CRLF ++ bs "hi".
Definition texts_of (r : res email) : option (list bytes) := match r with Ok e => Some (email_texts e ++ email_strings e) | _ => None end.
Example C32_example :
  texts_of (parse env_mime mail_utf8) = Some [bs "Zo" ++ [195; 171]%N; bs "Smith"; bs "Zo" ++ [195; 171]%N; bs "Smith"; bs " a"; bs "us-ascii";
    bs "zoe"; bs "x.org"; bs "zoe"; bs "x.org"; bs "plain"; bs "charset"]
  /\ texts_of (parse env_default mail_utf8) = Some [bs "=?utf-8?q?Zo=C3=AB?="; bs "Smith"; bs "=?utf-8?q?Zo=C3=AB?="; bs "Smith"; bs " a";
    bs "zoe"; bs "x.org"; bs "zoe"; bs "x.org"].
Proof. compute_all. Qed.

(* ---- C46: no control characters ---- *)
Theorem C46_without_mime : forall E data e, env_ok E -> f_mime E = false -> parse E data = Ok e ->
  Forall (chars printable) (email_texts e ++ email_strings e).
Proof. exact email_plain. Qed.
Print Assumptions C46_without_mime.
Theorem C46_addresses_and_names : forall E data e, env_ok E -> parse E data = Ok e -> Forall (chars printable) (email_strings e).
Proof. exact email_strings_plain. Qed.
Print Assumptions C46_addresses_and_names.
(* with mime, an encoded subject can hold a line end and what looks like another header *)
Theorem C46_with_mime_refuted : exists E data e v, env_ok E /\ f_mime E = true /\ parse E data = Ok e /\ subject e = Some v /\
  In v (email_texts e) /\ (exists a b, v = a ++ CRLF ++ b) /\ ~ Forall (chars printable) (email_texts e ++ email_strings e).
Proof. exact inject_witness. Qed.
Print Assumptions C46_with_mime_refuted.
Example C46_example :
  texts_of (parse env_default mail_utf8) = Some [bs "=?utf-8?q?Zo=C3=AB?="; bs "Smith"; bs "=?utf-8?q?Zo=C3=AB?="; bs "Smith"; bs " a";
    bs "zoe"; bs "x.org"; bs "zoe"; bs "x.org"].
Proof. vm_compute. reflexivity. Qed.

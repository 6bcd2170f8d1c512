(* Property C52: without the mime feature, the parser is exactly a grammar. *)
From Coq Require Import Lia.
From Verif Require Import Base Utf8 Time Address MimeFields Fields Message Entity Email Envs EnvOk Rfc5322 CodecSpec RfcFields EmailSpec Complete CompleteFields LineSpec ExactSpec ExactFacts.
Local Open Scope N_scope.

(* ---- C52 ---- *)
(* the emails that Email::parse returns are those of the texts of the grammar *)
Theorem C52_exact : forall E d e, env_ok E -> f_mime E = false -> parse E d = Ok e <-> exists fs b, message_read E d fs b /\ email_of E fs b e.
Proof. exact parse_exact. Qed.
Print Assumptions C52_exact.
(* it fails on all the other texts *)
Theorem C52_rejected : forall E d, env_ok E -> f_mime E = false -> (exists err, parse E d = Err err) <-> ~ exists fs b e, message_read E d fs b /\ email_of E fs b e.
Proof. exact unread_rejected. Qed.
Print Assumptions C52_rejected.
(* the same for parsing::message::parse_message *)
Theorem C52_message : forall E d fs b, env_ok E -> f_mime E = false -> parse_message E d = Ok (fs, b) <-> message_read E d fs b.
Proof. exact message_exact. Qed.
Print Assumptions C52_message.
(* the grammar is not ambiguous *)
Theorem C52_once : forall E d fs b fs' b', env_ok E -> f_mime E = false -> message_read E d fs b -> message_read E d fs' b' -> fs' = fs /\ b' = b.
Proof. exact message_read_once. Qed.
Print Assumptions C52_once.
(* one header, and one Received header in any build *)
Theorem C52_field : forall E c f i, env_ok E -> f_mime E = false -> new_line i -> any_field E (c ++ i) = Ok (i, f) <-> field_read E c f.
Proof. exact field_exact. Qed.
Print Assumptions C52_field.
Theorem C52_received : forall E c v i, new_line i -> received E (c ++ i) = Ok (i, v) <-> rfc_header "Received" (tidily (clear_received (f_compatibility_fixes E))) c v.
Proof. exact received_exact. Qed.
Print Assumptions C52_received.
(* a mail with two trace blocks, a return path that starts none, a Received header that comes too
   late, a From header with a blank before its end, and a Date with a comment *)
Definition some_mail : bytes :=
  bs "Return-Path: <>" ++ CRLF ++ bs "Received: from a.b (c); 5 May 2003 18:58:34 +0000" ++ CRLF ++ bs "Resent-To: x@y.z" ++ CRLF ++
  bs "Received: by <d@e.f>; 5 May 2003 18:58:35 +0000" ++ CRLF ++ bs "Return-Path: <>" ++ CRLF ++ bs "Sender: g@h.i" ++ CRLF ++
  bs "Received: by j; 5 May 2003 18:58:36 +0000" ++ CRLF ++ bs "To: k@l.m " ++ CRLF ++ bs "Date: 5 May 2003" ++ CRLF ++ bs " 18:58:34 +0000 (n)" ++ CRLF ++ bs "From: g@h.i, o@p.q" ++ CRLF ++ CRLF ++ bs "text".
Example C52_example : env_ok env_default /\ f_mime env_default = false /\
  (exists fs b e, message_read env_default some_mail fs b /\ email_of env_default fs b e /\
     length (trace_of e) = 2%nat /\ length (from e) = 2%nat /\
     unknown_fields e = [(bs "Return-Path", bs " <>"); (bs "Received", bs " by j; 5 May 2003 18:58:36 +0000"); (bs "To", bs " k@l.m")]) /\
  ~ exists fs b e, message_read env_default (bs " " ++ some_mail) fs b /\ email_of env_default fs b e.
Proof.
  split; [exact env_default_ok|]. split; [reflexivity|]. split.
  - destruct (parse env_default some_mail) as [e|err|k] eqn:P; [|vm_compute in P; discriminate..]. pose proof P as P'. apply (parse_exact env_default some_mail e env_default_ok eq_refl) in P' as (fs & b & H1 & H2).
    exists fs, b, e. split; [exact H1|]. split; [exact H2|]. vm_compute in P. injection P as <-. split; [reflexivity|]. split; reflexivity.
  - apply unread_rejected; [exact env_default_ok|reflexivity|]. eexists. vm_compute. reflexivity.
Qed.

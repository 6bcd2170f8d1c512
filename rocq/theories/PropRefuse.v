(* Property C57: why a text is refused, with the error returned; C07, C18, C19 and C20 in terms of
   the text of a mail. *)
From Coq Require Import Lia.
From Verif Require Import Base Utf8 Base64 Time Address MimeFields Fields Message Entity Email Envs EnvOk Rfc5322 Rfc2047 CodecSpec RfcFields EmailSpec Complete CompleteFields LineSpec MultipartSpec EntitySpec
  ForwardFields CutSpec ExactSpec MimeExactSpec PartExactSpec RefuseSpec DebugSpec RefuseFacts RefuseParts.
Ltac compute_all := repeat split; vm_compute; reflexivity.

(* ---- C57 ---- *)
(* a mail is refused with an error if and only if its text gives that reason *)
Theorem C57_mail : forall E, env_ok E -> debug E = false \/ f_mime E = false -> forall d err, parse E d = Err err <-> refused E d err.
Proof. exact refused_iff. Qed.
Print Assumptions C57_mail.
(* there is at most one reason *)
Theorem C57_one : forall E, env_ok E -> debug E = false \/ f_mime E = false -> forall d x y, refused E d x -> refused E d y -> x = y.
Proof. exact refused_fun. Qed.
Print Assumptions C57_one.
(* the same for builds with overflow checks *)
Theorem C57_checked : forall E d err, env_ok E -> semicolons d < 256 -> parse E d = Err err <-> refused (release E) d err.
Proof. exact refused_debug. Qed.
Print Assumptions C57_checked.
(* a part, and an entity that is parsed further *)
Theorem C57_part : forall E, env_ok E -> f_mime E = true -> debug E = false -> forall i err, raw_entity E i = Err err <-> refused_part E i err.
Proof. exact refused_part_iff. Qed.
Print Assumptions C57_part.
Theorem C57_entity : forall E, env_ok E -> f_mime E = true -> debug E = false -> forall r err, entity E r = Err err <-> refused_entity E r err.
Proof. exact refused_entity_iff. Qed.
Print Assumptions C57_entity.

(* ---- C07: the errors of base64 ---- *)
Theorem C07_errors : forall E data w, decode_base64 E data = Err (Unknown w) <-> b64_fault G0 (symbols data) = Some w.
Proof. exact base64_faults. Qed.
Print Assumptions C07_errors.
Example C07_errors_example : b64_fault G0 (symbols (bs "QQ=Q")) = Some "Data after end of data"%string /\ b64_fault G0 (symbols (bs "aGk=Q!")) = Some "Missing at least 3 bytes"%string
  /\ b64_fault G0 (symbols (bs "aGk")) = Some "Missing at least 1 byte"%string /\ b64_fault G0 (symbols (bs "aGk=")) = None.
Proof. compute_all. Qed.

(* ---- C18, C19, C20 from the text of a mail ---- *)
Theorem C18_text : forall E, env_ok E -> debug E = false \/ f_mime E = false -> forall d n,
  parse E d = Err (DuplicateHeader n) <-> exists fs b, reads E d fs b /\ good_body E b /\ first_repeat fs n.
Proof. exact duplicate_text. Qed.
Print Assumptions C18_text.
Theorem C19_text : forall E, env_ok E -> debug E = false \/ f_mime E = false -> forall d n,
  parse E d = Err (MissingHeader n) <-> exists fs b, reads E d fs b /\ good_body E b /\ NoDup (pick singular fs) /\
  (n = "From"%string /\ f_from E = true /\ pick is_from fs = [] \/
   (f_from E = true -> pick is_from fs <> []) /\ (n = "Date"%string /\ f_date E = true /\ pick is_date fs = [] \/
   (f_date E = true -> pick is_date fs <> []) /\ n = "Sender"%string /\ f_sender E = true /\ pick is_sender fs = [] /\ exists l, pick is_from fs = [l] /\ length l <> 1)).
Proof. exact missing_text. Qed.
Print Assumptions C19_text.
(* the email of an accepted text is that of its headers and body; the headers can be read in one
   way only, up to the order of parameters *)
Theorem C20_text : forall E, env_ok E -> debug E = false \/ f_mime E = false -> forall d e,
  parse E d = Ok e -> exists fs b, reads E d fs b /\ good_body E b /\ email_of E fs b e.
Proof. exact email_text. Qed.
Print Assumptions C20_text.
Theorem C20_any_reading : forall E, env_ok E -> debug E = false \/ f_mime E = false -> forall d fs b e,
  reads E d fs b -> parse E d = Ok e -> exists fs', Forall2 same_field fs fs' /\ email_of E fs' b e.
Proof. exact text_email. Qed.
Print Assumptions C20_any_reading.

(* every reason occurs *)
Definition ex_from : bytes := bs "From: a@b.c" ++ CRLF.
Definition ex_date : bytes := bs "Date: 5 May 2003 18:58:34 +0000" ++ CRLF.
Definition ex_two : bytes := bs "From: a@b.c, d@e.f" ++ CRLF.
Definition ex_code (e : bytes) : bytes := ex_from ++ ex_date ++ bs "Content-Transfer-Encoding: " ++ e ++ CRLF ++ CRLF ++ bs "aGk=Q".
Definition ex_entity (t : content_type_t) (p : list (bytes * bytes)) (v : bytes) : raw_entity_t :=
  {| e_mime_type := t; e_subtype := bs "x"; e_description := None; e_id := None; e_parameters := p; e_disposition := None; e_value := v; e_additional_headers := [] |}.
Definition ex_parts : bytes :=
  bs "--b" ++ CRLF ++ CRLF ++ bs "good" ++ CRLF ++ bs "--b" ++ CRLF ++ bs "Content-Transfer-Encoding: x" ++ CRLF ++ CRLF ++ CRLF ++ bs "--b" ++ CRLF ++ bs "bad" ++ CRLF ++ bs "--b--" ++ CRLF.
Example C57_example :
  refused env_default (bs "From") (Explicit "TAG ERROR: Headers must be followed by a CRLF sequence.") /\
  refused env_default (ex_from ++ CRLF ++ [0%N]) (Explicit "TAG ERROR: In a body, a line must end with a CRLF sequence.") /\
  refused env_default (ex_from ++ ex_from) (DuplicateHeader "From") /\ refused env_mime ex_date (MissingHeader "From") /\ refused env_mime ex_two (MissingHeader "Date") /\
  refused env_mime (ex_two ++ ex_date) (MissingHeader "Sender") /\ refused env_mime (ex_code (bs "base64")) (Unknown "Missing at least 3 bytes") /\ refused env_mime (ex_code (bs "x")) (Unknown "Unknown format") /\
  (exists e, parse env_mime (ex_code (bs "8bit")) = Ok e) /\
  refused_part env_mime (bs "bad") (Explicit "TAG ERROR: A MIME entity header part must be followed by a CRLF sequence.") /\
  refused_entity env_mime (ex_entity CMultipart [] ex_parts) (Unknown "Missing boundary parameter") /\
  refused_entity env_mime (ex_entity CMultipart [(bs "boundary", bs "c")] ex_parts) (Unknown "closing boundary not found") /\
  refused_entity env_mime (ex_entity CMultipart [(bs "boundary", bs "b")] ex_parts) (Unknown "Unknown format") /\
  refused_entity env_mime (ex_entity CText [(bs "charset", bs "UTF-8")] [255%N]) (Unknown "Invalid text encoding").
Proof.
  assert (D : forall d err, parse env_default d = Err err -> refused env_default d err) by (intros d err; apply (refused_iff env_default env_default_ok (or_introl eq_refl))).
  assert (M : forall d err, parse env_mime d = Err err -> refused env_mime d err) by (intros d err; apply (refused_iff env_mime env_mime_ok (or_introl eq_refl))).
  assert (X : forall d err, entity env_mime d = Err err -> refused_entity env_mime d err) by (intros d err; apply (refused_entity_iff env_mime env_mime_ok eq_refl eq_refl)).
  split; [apply D; vm_compute; reflexivity|]. split; [apply D; vm_compute; reflexivity|]. split; [apply D; vm_compute; reflexivity|].
  split; [apply M; vm_compute; reflexivity|]. split; [apply M; vm_compute; reflexivity|]. split; [apply M; vm_compute; reflexivity|]. split; [apply M; vm_compute; reflexivity|]. split; [apply M; vm_compute; reflexivity|].
  split; [eexists; vm_compute; reflexivity|]. split; [apply (refused_part_iff env_mime env_mime_ok eq_refl eq_refl); vm_compute; reflexivity|].
  split; [apply X; vm_compute; reflexivity|]. split; [apply X; vm_compute; reflexivity|]. split; [apply X; vm_compute; reflexivity|]. apply X; vm_compute; reflexivity.
Qed.

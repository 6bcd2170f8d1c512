(* Property C75: carriage returns and line feeds that do not belong to a line end. *)
From Coq Require Import Lia.
From Verif Require Import Base Utf8 Time Address MimeFields Fields Message Entity Email Envs EnvOk Rfc5322 CodecSpec RfcFields EmailSpec LineSpec TruncSpec LoneSpec LoneFacts.
Local Open Scope N_scope.

(* ---- C75 ---- *)
(* in the headers of an accepted mail, which end at its first empty line, CR and LF come in pairs *)
Theorem C75_headers : forall E d e, env_ok E -> parse E d = Ok e -> exists h r, d = h ++ r /\ (r = [] \/ exists b, r = CRLF ++ b) /\ in_headers h /\ paired h /\ Forall header_byte h.
Proof. exact accepted_headers. Qed.
Print Assumptions C75_headers.
(* without mime, in the whole mail *)
Theorem C75_mail : forall E d e, env_ok E -> f_mime E = false -> parse E d = Ok e -> paired d /\ Forall (fun c => 1 <= c <= 127) d.
Proof. exact accepted_mail. Qed.
Print Assumptions C75_mail.
(* a lone CR, a lone LF or a foreign byte in the headers is refused, with this error *)
Theorem C75_refused : forall E a c b, env_ok E -> debug E = false \/ f_mime E = false -> in_headers a -> misplaced a c b -> parse E (a ++ c :: b) = Err (Explicit "TAG ERROR: Headers must be followed by a CRLF sequence.").
Proof. exact misplaced_refused. Qed.
Print Assumptions C75_refused.
(* as is every mail with the line ends of Unix *)
Theorem C75_unix : forall E d, env_ok E -> debug E = false \/ f_mime E = false -> d <> [] -> ~ In 13 d -> parse E d = Err (Explicit "TAG ERROR: Headers must be followed by a CRLF sequence.").
Proof. exact unix_refused. Qed.
Print Assumptions C75_unix.
(* the same for the headers of the parts of a multipart *)
Theorem C75_part : forall E i x, env_ok E -> raw_entity E i = Ok x -> exists h r, i = h ++ r /\ (r = [] \/ exists b, r = CRLF ++ b) /\ in_headers h /\ paired h /\ Forall header_byte h.
Proof. exact accepted_part. Qed.
Print Assumptions C75_part.
Theorem C75_part_refused : forall E a c b, env_ok E -> debug E = false -> in_headers a -> misplaced a c b -> raw_entity E (a ++ c :: b) = Err (Explicit "TAG ERROR: A MIME entity header part must be followed by a CRLF sequence.").
Proof. exact misplaced_part. Qed.
Print Assumptions C75_part_refused.
Example C75_example_part : raw_entity env_mime (bs "Content-ID: <a@b>" ++ 10 :: CRLF ++ bs "x") = Err (Explicit "TAG ERROR: A MIME entity header part must be followed by a CRLF sequence.") /\
  exists x, raw_entity env_mime (bs "Content-ID: <a@b>" ++ CRLF ++ CRLF ++ bs "x" ++ [10]) = Ok x /\ e_value x = bs "x" ++ [10].
Proof. split; [vm_compute; reflexivity|]. eexists. split; vm_compute; reflexivity. Qed.
(* with mime, the body can hold a lone LF, hence what some servers take for the end of a mail *)
Theorem C75_mime_refuted : exists d e, parse env_mime d = Ok e /\ (exists a b, d = a ++ [120; 10; 46; 10] ++ b) /\ ~ paired d.
Proof.
  exists ((bs "From: a@b" ++ CRLF ++ bs "Date: 5 May 2023 18:58 +0000" ++ CRLF ++ CRLF) ++ [120; 10; 46; 10] ++ bs "MAIL"). eexists. split; [vm_compute; reflexivity|]. split; [eauto|].
  intros [_ H]. destruct (H ((bs "From: a@b" ++ CRLF ++ bs "Date: 5 May 2023 18:58 +0000" ++ CRLF ++ CRLF) ++ [120]) ([46; 10] ++ bs "MAIL")) as [a' X]; [rewrite <- !app_assoc; reflexivity|].
  apply app_inj_tail in X as [_ X]. discriminate.
Qed.
Print Assumptions C75_mime_refuted.

Definition smuggling (x : bytes) : bytes := bs "From: a@b" ++ CRLF ++ bs "Date: 5 May 2023 18:58 +0000" ++ CRLF ++ CRLF ++ bs "hello" ++ x ++ bs "." ++ x ++ bs "MAIL".
Example C75_example : in_headers (bs "From: a@b") /\ misplaced (bs "From: a@b") 10 (bs "To: c@d") /\ misplaced (bs "From: a@b") 13 (bs "To: c@d") /\ misplaced (bs "From: ") 233 (bs "@b") /\
  parse env_default (bs "From: a@b" ++ [10] ++ bs "To: c@d") = Err (Explicit "TAG ERROR: Headers must be followed by a CRLF sequence.") /\
  (exists e, parse env_default (smuggling CRLF) = Ok e) /\ parse env_default (smuggling [10]) = Err (Explicit "TAG ERROR: In a body, a line must end with a CRLF sequence.") /\
  parse env_default (smuggling [13]) = Err (Explicit "TAG ERROR: In a body, a line must end with a CRLF sequence.").
Proof.
  split; [|split; [|split; [|split; [|split; [|split; [|split]]]]]].
  - split; [intros x X; discriminate X|]. intros a b X. assert (K : In 13 (bs "From: a@b")) by (rewrite X; apply in_or_app; right; now left). vm_compute in K. clear X. intuition discriminate.
  - apply lone_lf. intros a X. assert (K : In 13 (bs "From: a@b")) by (rewrite X; apply in_or_app; right; now left). vm_compute in K. clear X. intuition discriminate.
  - apply lone_cr. intros b X. discriminate X.
  - apply foreign. unfold header_byte, rfc_VCHAR, rfc_WSP. lia.
  - vm_compute. reflexivity.
  - eexists. vm_compute. reflexivity.
  - vm_compute. reflexivity.
  - vm_compute. reflexivity.
Qed.

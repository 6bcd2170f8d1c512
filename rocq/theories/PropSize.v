(* Property C64: the size of what is returned. *)
From Coq Require Import Lia.
From Verif Require Import Base Time Address MimeFields Fields Message Entity Email Envs EnvOk CodecSpec EmailSpec TextSpec SizeSpec RegularFacts SizeMail SizeLow.
Local Open Scope nat_scope.
Ltac compute_all := lazymatch goal with |- _ /\ _ => split; compute_all | _ => vm_compute; reflexivity end.

(* ---- C64 ---- *)
(* without mime: an email holds no more bytes and no more strings than the mail has bytes, but for the
   sender, which can be a second copy of the author *)
Theorem C64_mail : forall E D e, env_ok E -> f_mime E = false -> parse E D = Ok e ->
  (volume (contents e) <= length D + volume (sender_contents e) /\ volume (sender_contents e) <= length D) /\
  (length (contents e) <= length D + length (sender_contents e) /\ length (sender_contents e) <= length D).
Proof. exact text_mail_size. Qed.
Print Assumptions C64_mail.
(* the second copy is real: twice the length is reached, up to a constant *)
Theorem C64_twice : forall n, exists D e, parse env_default D = Ok e /\ n <= length D /\ 2 * length D <= volume (contents e) + 78.
Proof. exact long_sender. Qed.
Print Assumptions C64_twice.
(* with mime: k times, where k >= 3 bounds what decoding a charset makes of a text; 20 bytes are the
   default type text/plain; charset=us-ascii *)
Theorem C64_mime : forall k E D e, 3 <= k -> env_ok E -> f_mime E = true -> expands k E -> parse E D = Ok e ->
  (volume (contents e) <= k * length D + 20 + volume (sender_contents e) /\ volume (sender_contents e) <= k * length D) /\
  (length (contents e) <= length D + 4 + length (sender_contents e) /\ length (sender_contents e) <= length D).
Proof. exact mime_mail_size. Qed.
Print Assumptions C64_mime.
(* a part *)
Theorem C64_part : forall k E i r, 3 <= k -> env_ok E -> f_mime E = true -> expands k E -> raw_entity E i = Ok r ->
  volume (part_contents r) <= k * length i + 20 /\ length (part_contents r) <= length i + 4.
Proof. exact part_size. Qed.
Print Assumptions C64_part.
(* three times is reached: quoted-printable replaces each byte it does not allow by three *)
Theorem C64_thrice : forall n, exists r, raw_entity env_mime (bad_part n) = Ok r /\ e_value r = concat (repeat REPLACEMENT n) /\ volume (part_contents r) = 3 * n + 20.
Proof. exact part_thrice. Qed.
Print Assumptions C64_thrice.
(* all the parts of a multipart, and how many there can be *)
Theorem C64_parts : forall k E r s es, 3 <= k -> env_ok E -> f_mime E = true -> expands k E -> entity E r = Ok (EMultipart s es) ->
  volume (concat (map part_contents es)) <= k * length (e_value r) + 20 * length es /\ length (concat (map part_contents es)) <= length (e_value r) /\ 4 * length es <= length (e_value r).
Proof. exact parts_size. Qed.
Print Assumptions C64_parts.
(* a decoded text *)
Theorem C64_decoded : forall k E r s v, 1 <= k -> env_ok E -> expands k E -> entity E r = Ok (EText s v) -> s = e_subtype r /\ length v <= k * length (e_value r).
Proof. exact text_size. Qed.
Print Assumptions C64_decoded.

Definition size_mail : bytes := bs "From: Ann Lee <a@b>" ++ CRLF ++ date_line ++ bs "X-Y: z" ++ CRLF ++ CRLF ++ bs "body".
Example C64_example : env_ok env_default /\ f_mime env_default = false /\ length size_mail = 65 /\
  (exists e, parse env_default size_mail = Ok e /\ contents e = map bs ["Ann"; "Lee"; "Ann"; "Lee"; " z"; "a"; "b"; "a"; "b"; "X-Y"; "body"]%string /\ sender_contents e = map bs ["Ann"; "Lee"; "a"; "b"]%string /\ volume (contents e) = 25)
  /\ length (bad_part 5) = 51 /\ firstn 46 (bad_part 5) = bs "Content-Transfer-Encoding:quoted-printable" ++ CRLF ++ CRLF.
Proof.
  split; [exact env_default_ok|]. split; [reflexivity|]. split; [vm_compute; reflexivity|]. split; [|compute_all].
  let z := eval vm_compute in (parse env_default size_mail) in match z with Ok ?z => exists z end. compute_all.
Qed.
Definition size_parts : bytes := bs "From: a@b" ++ CRLF ++ date_line ++ bs "Content-Type: multipart/mixed; boundary=x" ++ CRLF ++ CRLF ++
  bs "--x" ++ CRLF ++ bs "Content-Transfer-Encoding: quoted-printable" ++ CRLF ++ CRLF ++ [7; 8]%N ++ CRLF ++ bs "--x" ++ CRLF ++ CRLF ++ bs "b" ++ CRLF ++ bs "--x--" ++ CRLF.
Example C64_parts_example : env_ok env_mime /\ f_mime env_mime = true /\ expands 3 env_mime /\
  exists e r a b, parse env_mime size_parts = Ok e /\ mime_entity e = Some r /\ entity env_mime r = Ok (EMultipart (bs "mixed") [a; b]) /\
    length (e_value r) = 73 /\ e_value a = REPLACEMENT ++ REPLACEMENT /\ part_contents b = map bs ["us-ascii"; "plain"; "charset"; "b"]%string /\ entity env_mime b = Ok (EText (bs "plain") (bs "b")).
Proof.
  split; [exact env_mime_ok|]. split; [reflexivity|]. split; [intros c v; apply latin1_doubles|].
  let z := eval vm_compute in (parse env_mime size_parts) in match z with Ok ?z => let r := eval vm_compute in (mime_entity z) in match r with Some ?r =>
  let x := eval vm_compute in (entity env_mime r) in match x with Ok (EMultipart _ [?a; ?b]) => exists z, r, a, b end end end. compute_all.
Qed.

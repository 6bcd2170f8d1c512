(* Property C69: the messages of all errors; which types are composite. *)
From Verif Require Import Base Time Address MimeFields Fields Message Entity Email Envs EnvOk EmailSpec RegularFacts Display DisplaySpec DisplayFacts.

(* ---- C69 ---- *)
(* the message of a refused mail is in the table, with its error *)
Theorem C69_mail : forall E d err, env_ok E -> parse E d = Err err -> In (display err, err) mail_messages.
Proof. exact mail_message. Qed.
Print Assumptions C69_mail.
Theorem C69_part : forall E i err, env_ok E -> f_mime E = true -> raw_entity E i = Err err -> In (display err, err) part_messages.
Proof. exact part_message. Qed.
Print Assumptions C69_part.
Theorem C69_entity : forall E r err, env_ok E -> f_mime E = true -> entity E r = Err err -> In (display err, err) part_messages.
Proof. exact entity_message. Qed.
Print Assumptions C69_entity.
(* so the message tells the error, and by C57 the reason *)
Theorem C69_tells : forall E E' d d' x y, env_ok E -> env_ok E' -> parse E d = Err x -> parse E' d' = Err y -> display x = display y -> x = y.
Proof. exact mail_error. Qed.
Print Assumptions C69_tells.
Theorem C69_entity_tells : forall E E' r r' x y, env_ok E -> env_ok E' -> f_mime E = true -> f_mime E' = true -> entity E r = Err x -> entity E' r' = Err y -> display x = display y -> x = y.
Proof. exact entity_error. Qed.
Print Assumptions C69_entity_tells.
(* what has parts is composite; the composite types are multiparts and messages, which are never parsed *)
Theorem C69_composite : forall E r s es, entity E r = Ok (EMultipart s es) -> is_composite_type (e_mime_type r) = true.
Proof. exact composite_multipart. Qed.
Print Assumptions C69_composite.
Theorem C69_message_kept : forall E r, is_composite_type (e_mime_type r) = true <-> e_mime_type r = CMultipart \/ e_mime_type r = CMessage /\ entity E r = Ok EUnknown.
Proof. exact composite_kinds. Qed.
Print Assumptions C69_message_kept.

(* every message of the table is displayed for some mail *)
Definition twice (h : string) : bytes := bs h ++ CRLF ++ bs h ++ CRLF.
Definition encoded_mail (enc body : string) : bytes := bs "From: a@b" ++ CRLF ++ date_line ++ bs "Content-Transfer-Encoding: " ++ bs enc ++ CRLF ++ CRLF ++ bs body.
Definition refused_mails : list bytes :=
  map twice ["From:a@b"; "Sender:a@b"; "Subject:"; "Date:1 Jan 2000 00:00 +0000"; "To:a@b"; "Cc:a@b"; "Bcc:a@b"; "Message-ID:<a@b>"; "In-Reply-To:<a@b>"; "References:<a@b>"; "Reply-To:a@b";
    "MIME-Version:1.0"; "Content-Type:text/plain"; "Content-Transfer-Encoding:7bit"; "Content-ID:<a@b>"; "Content-Description:x"; "Content-Disposition:inline"]%string ++
  [[]; bs "From:a@b" ++ CRLF; bs "From:a@b,c@d" ++ CRLF ++ bs "Date:1 Jan 2000 00:00 +0000" ++ CRLF;
   encoded_mail "base64" "a"; encoded_mail "base64" "aa"; encoded_mail "base64" "aaa"; encoded_mail "base64" "aa=a"; encoded_mail "x" "a"].
Example C69_example : parse env_mime (bs "x") = Err (snd (nth 0 mail_messages (""%string, Unknown ""))) /\ parse env_default (CRLF ++ [0%N]) = Err (snd (nth 1 mail_messages (""%string, Unknown ""))) /\
  map (parse env_mime) refused_mails = map (fun x => Err (snd x)) (skipn 2 mail_messages) /\
  map (fun x => display (snd x)) mail_messages = map fst mail_messages /\
  (exists e r, try_from env_mime (bs "From: a@b" ++ CRLF ++ date_line ++ bs "Content-Type: message/rfc822; a=a" ++ CRLF ++ CRLF ++ bs "x") = Ok e /\ mime_entity e = Some r /\ is_composite_type (e_mime_type r) = true /\ entity env_mime r = Ok EUnknown).
Proof.
  split; [vm_compute; reflexivity|]. split; [vm_compute; reflexivity|]. split; [vm_compute; reflexivity|]. split; [vm_compute; reflexivity|].
  eexists. eexists. split; [vm_compute; reflexivity|]. split; [reflexivity|]. split; vm_compute; reflexivity.
Qed.

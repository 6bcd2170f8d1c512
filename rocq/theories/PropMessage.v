(* Properties C12, C16-C20, C39, C44: from the bytes of a message to the Email structure. *)
From Verif Require Import Base Utf8 Combinators Time Address Base64 QuotedPrintable MimeFields Fields Message Entity Email Envs EnvOk Rfc5322 CodecSpec
  RfcFields EmailSpec EntitySpec SoundMessage EmailProofs MessageFacts.
Ltac compute_all := lazymatch goal with |- _ /\ _ => split; compute_all | _ => vm_compute; reflexivity end.

(* a message used by the examples *)
Definition sample_headers : bytes :=
  bs "From: Jo <jo@x.org>" ++ CRLF ++ bs "Subject: Hi" ++ CRLF ++ bs " all" ++ CRLF ++
  bs "Date: Fri, 5 May 2023 18:58:34 +0000" ++ CRLF ++ bs "X-A:1" ++ CRLF ++ bs "x-a: 2" ++ CRLF.
Definition sample : bytes := sample_headers ++ CRLF ++ bs "a" ++ CRLF ++ bs "b".
Definition jo : mailbox_t := {| m_name := Some [bs "Jo"]; m_address := {| a_local_part := bs "jo"; a_domain := bs "x.org" |} |}.
Definition sample_date : date_time_t :=
  {| dt_day_name := Some Friday; dt_date := {| d_day := 5; d_month := May; d_year := 2023 |};
     dt_time := {| tz_time := {| t_hour := 18; t_minute := 58; t_second := 34 |};
                   tz_zone := {| z_sign := true; z_hour_offset := 0; z_minute_offset := 0 |} |} |}%N.
Definition sample_fields : list field :=
  [FFrom [jo]; FSubject (bs " Hi all"); FDate sample_date; FUnknown (bs "X-A") (bs "1"); FUnknown (bs "x-a") (bs " 2")].

(* ---- C12: transfer decoding ---- *)
Theorem C12_transfer_decoding : forall E b enc v, decode_value E b enc = Ok v <-> transfer_decoded enc b v.
Proof. exact transfer_iff. Qed.
Print Assumptions C12_transfer_decoding.
Theorem C12_unknown_encoding_refused : forall E b n, exists w, decode_value E b (UnknownEnc n) = Err (Unknown w).
Proof. exact transfer_refused. Qed.
Print Assumptions C12_unknown_encoding_refused.
Theorem C12_base64_body_back : forall E data, wf_bytes data ->
  exists text, encode_base64 E data = Ok text /\ decode_value E text Base64Enc = Ok data.
Proof. exact transfer_base64_back. Qed.
Print Assumptions C12_base64_body_back.
Theorem C12_quoted_printable_body_back : forall E data, wf_bytes data ->
  exists text, encode_qp E data = Ok text /\ decode_value E text QuotedPrintableEnc = Ok data.
Proof. exact transfer_qp_back. Qed.
Print Assumptions C12_quoted_printable_body_back.
(* the value of the entity returned by Email::parse *)
Theorem C12_message_value : forall E data fs b e, env_ok E -> f_mime E = true ->
  parse_message E data = Ok (fs, Some b) -> parse E data = Ok e ->
  exists r, mime_entity e = Some r /\ transfer_decoded (encoding_of (only is_cte fs)) b (e_value r).
Proof. exact parse_transfer. Qed.
Print Assumptions C12_message_value.
Example C12_example : decode_value env_mime (bs "aG V5") Base64Enc = Ok (bs "hey")
  /\ decode_value env_mime (bs "a=3Db") QuotedPrintableEnc = Ok (bs "a=b") /\ decode_value env_mime (bs "a=3Db") Binary = Ok (bs "a=3Db").
Proof. compute_all. Qed.
Example C12_example_message : exists fs e r,
  parse_message env_mime (sample_headers ++ bs "Content-Transfer-Encoding: BASE64" ++ CRLF ++ CRLF ++ bs "aGV5") = Ok (fs, Some (bs "aGV5"))
  /\ parse env_mime (sample_headers ++ bs "Content-Transfer-Encoding: BASE64" ++ CRLF ++ CRLF ++ bs "aGV5") = Ok e
  /\ mime_entity e = Some r /\ e_value r = bs "hey".
Proof. do 3 eexists. compute_all. Qed.

(* ---- C16: no byte is lost ---- *)
Theorem C16_no_byte_lost : forall E data e, env_ok E -> parse E data = Ok e ->
  exists texts fs b, Forall2 (field_text E) texts fs /\ Forall ends_crlf texts /\
    (b = None /\ data = concat texts \/ exists t, b = Some t /\ data = concat texts ++ CRLF ++ t) /\ email_of E fs b e.
Proof. exact no_byte_lost. Qed.
Print Assumptions C16_no_byte_lost.
Example C16_example : env_ok env_default /\ exists e, parse env_default sample = Ok e /\ unknown_fields e = [(bs "X-A", bs "1"); (bs "x-a", bs " 2")].
Proof. split; [exact env_default_ok|]. eexists. split; vm_compute; reflexivity. Qed.

(* ---- C17: bodies ---- *)
Theorem C17_body_iff : forall b v, body (CRLF ++ b) = Ok v <-> v = Some b /\ body_text b.
Proof. exact body_accept. Qed.
Print Assumptions C17_body_iff.
Theorem C17_body_refused : forall b, ~ body_text b <->
  body (CRLF ++ b) = Err (Explicit "TAG ERROR: In a body, a line must end with a CRLF sequence.").
Proof. exact body_reject. Qed.
Print Assumptions C17_body_refused.
Theorem C17_message_body : forall E data e, env_ok E -> f_mime E = false -> parse E data = Ok e ->
  match body_of e with
  | Some b => body_text b /\ exists h, data = h ++ CRLF ++ b
  | None => exists fs, many_of (field_text E) data fs
  end.
Proof. exact parse_body. Qed.
Print Assumptions C17_message_body.
Example C17_example : (exists e, parse env_default sample = Ok e /\ body_of e = Some (bs "a" ++ CRLF ++ bs "b"))
  /\ (exists e, parse env_default sample_headers = Ok e /\ body_of e = None)
  /\ body (CRLF ++ repeat 65%N 998) = Ok (Some (repeat 65%N 998))
  /\ parse env_default (sample_headers ++ CRLF ++ repeat 65%N 999) = Err body_error.
Proof. split; [eexists; split; vm_compute; reflexivity|]. split; [eexists; split; vm_compute; reflexivity|]. split; vm_compute; reflexivity. Qed.

(* ---- C18: duplicates ---- *)
Theorem C18_first_duplicate : forall E data fs b n, env_ok E -> parse_message E data = Ok (fs, b) ->
  parse E data = Err (DuplicateHeader n) <-> first_repeat fs n.
Proof. exact duplicate_iff. Qed.
Print Assumptions C18_first_duplicate.
Theorem C18_repetition_rejected : forall E data fs b n, env_ok E -> parse_message E data = Ok (fs, b) ->
  (exists a f c g d, fs = a ++ f :: c ++ g :: d /\ singular f = Some n /\ singular g = Some n) ->
  exists m, parse E data = Err (DuplicateHeader m).
Proof. exact repeat_rejected. Qed.
Print Assumptions C18_repetition_rejected.
Example C18_example : exists fs b,
  parse_message env_default (bs "Subject:a" ++ CRLF ++ bs "Message-ID:<a@b>" ++ CRLF ++ bs "subject:b" ++ CRLF ++ bs "MESSAGE-ID:<a@b>" ++ CRLF) = Ok (fs, b)
  /\ fs = [FSubject (bs "a"); FMessageId (bs "a", bs "b"); FSubject (bs "b"); FMessageId (bs "a", bs "b")]
  /\ first_repeat fs "Subject".
Proof.
  do 2 eexists. split; [vm_compute; reflexivity|]. split; [reflexivity|].
  exists [FSubject (bs "a"); FMessageId (bs "a", bs "b")], (FSubject (bs "b")), [FMessageId (bs "a", bs "b")].
  repeat split; [now left|]. cbn. constructor; [|constructor; [easy|constructor]]. intros [|[]]. discriminate.
Qed.

(* ---- C19: mandatory headers and sender ---- *)
Theorem C19_mandatory : forall E data fs b e, env_ok E -> parse_message E data = Ok (fs, b) -> parse E data = Ok e ->
  (f_from E = true -> pick is_from fs = [from e]) /\
  (f_date E = true -> exists d, date_of e = Some d /\ pick is_date fs = [d]) /\
  (f_sender E = true -> exists s, sender e = Some s /\ (pick is_sender fs = [s] \/ pick is_sender fs = [] /\ from e = [s])).
Proof. exact mandatory. Qed.
Print Assumptions C19_mandatory.
Theorem C19_missing_from : forall E data fs b, env_ok E -> parse_message E data = Ok (fs, b) -> NoDup (pick singular fs) ->
  f_from E = true -> pick is_from fs = [] -> parse E data = Err (MissingHeader "From").
Proof. exact missing_from. Qed.
Print Assumptions C19_missing_from.
Theorem C19_missing_date : forall E data fs b, env_ok E -> parse_message E data = Ok (fs, b) -> NoDup (pick singular fs) ->
  (f_from E = true -> pick is_from fs <> []) -> f_date E = true -> pick is_date fs = [] -> parse E data = Err (MissingHeader "Date").
Proof. exact missing_date. Qed.
Print Assumptions C19_missing_date.
Theorem C19_missing_sender : forall E data fs b l, env_ok E -> parse_message E data = Ok (fs, b) -> NoDup (pick singular fs) ->
  f_sender E = true -> pick is_sender fs = [] -> pick is_from fs = [l] -> length l <> 1 -> (f_date E = true -> pick is_date fs <> []) ->
  parse E data = Err (MissingHeader "Sender").
Proof. exact missing_sender. Qed.
Print Assumptions C19_missing_sender.
Example C19_example : exists fs b e, parse_message env_default sample = Ok (fs, b) /\ parse env_default sample = Ok e
  /\ fs = sample_fields /\ sender e = Some jo /\ from e = [jo] /\ date_of e = Some sample_date.
Proof. do 3 eexists. compute_all. Qed.
Example C19_example_sender : exists fs b l,
  parse_message env_default (bs "From:a@b,c@d" ++ CRLF ++ bs "Date: 5 May 2023 18:58:34 +0000" ++ CRLF) = Ok (fs, b)
  /\ pick is_from fs = [l] /\ length l = 2 /\ pick is_sender fs = []
  /\ parse env_default (bs "From:a@b,c@d" ++ CRLF ++ bs "Date: 5 May 2023 18:58:34 +0000" ++ CRLF) = Err (MissingHeader "Sender").
Proof. do 3 eexists. compute_all. Qed.

(* ---- C20: faithful assignment ---- *)
(* [email_of] says, component by component, what the email of a list of fields is. *)
Theorem C20_faithful : forall E data fs b e, env_ok E -> parse_message E data = Ok (fs, b) ->
  parse E data = Ok e <-> email_of E fs b e.
Proof. exact parse_iff_email. Qed.
Print Assumptions C20_faithful.
Example C20_example : parse_message env_default sample = Ok (sample_fields, Some (bs "a" ++ CRLF ++ bs "b"))
  /\ exists e, parse env_default sample = Ok e /\ subject e = Some (bs " Hi all") /\ to e = None /\ comments e = [].
Proof. split; [vm_compute; reflexivity|]. eexists. compute_all. Qed.

(* ---- C39: MIME defaults ---- *)
Theorem C39_message_defaults : forall E data fs b e, env_ok E -> f_mime E = true -> parse_message E data = Ok (fs, b) -> parse E data = Ok e ->
  exists r, mime_entity e = Some r /\
  ((forall t s p, ~ In (FContentType t s p) fs) ->
     e_mime_type r = CText /\ e_subtype r = bs "plain" /\ e_parameters r = [(bs "charset", bs "us-ascii")]) /\
  ((forall x, ~ In (FContentTransferEncoding x) fs) -> e_value r = match b with Some t => t | None => [] end).
Proof. exact message_defaults. Qed.
Print Assumptions C39_message_defaults.
Theorem C39_part_defaults : forall E i r, env_ok E -> raw_entity E i = Ok r ->
  exists hs b, part_text E i hs b /\ part_of hs b r /\
  ((forall t s p, ~ In (HType t s p) hs) ->
     e_mime_type r = CText /\ e_subtype r = bs "plain" /\ e_parameters r = [(bs "charset", bs "us-ascii")]) /\
  ((forall x, ~ In (HEncoding x) hs) -> e_value r = b).
Proof. exact part_defaults. Qed.
Print Assumptions C39_part_defaults.
Example C39_example : (exists r, raw_entity env_mime (bs "Content-Type: texx" ++ CRLF ++ CRLF ++ [0; 200]%N) = Ok r
    /\ e_mime_type r = CText /\ e_value r = [0; 200]%N /\ e_additional_headers r = [(bs "Content-Type", bs " texx")])
  /\ exists e, parse env_mime sample = Ok e /\ exists r, mime_entity e = Some r /\ e_subtype r = bs "plain" /\ e_value r = bs "a" ++ CRLF ++ bs "b".
Proof. split; [eexists; compute_all|]. eexists. split; [vm_compute; reflexivity|]. eexists. compute_all. Qed.

(* ---- C44: the errors without mime ---- *)
Theorem C44_errors : forall E data err, env_ok E -> f_mime E = false -> parse E data = Err err ->
  err = headers_error \/ err = body_error \/ (exists n, In n singular_names /\ err = DuplicateHeader n) \/
  In err [MissingHeader "From"; MissingHeader "Date"; MissingHeader "Sender"].
Proof. exact parse_errors. Qed.
Print Assumptions C44_errors.
(* and all of these occur *)
Definition twice (h : string) : bytes := bs h ++ CRLF ++ bs h ++ CRLF.
Example C44_example :
  parse env_default (bs "x") = Err headers_error /\ parse env_default (CRLF ++ [0%N]) = Err body_error
  /\ map (fun h => parse env_default (twice h))
       ["From:a@b"; "Sender:a@b"; "Subject:"; "Date:1 Jan 2000 00:00 +0000"; "To:a@b"; "Cc:a@b"; "Bcc:a@b"; "Message-ID:<a@b>"; "In-Reply-To:<a@b>";
        "References:<a@b>"; "Reply-To:a@b"]%string = map (fun n => Err (DuplicateHeader n)) singular_names
  /\ parse env_default [] = Err (MissingHeader "From") /\ parse env_default (bs "From:a@b" ++ CRLF) = Err (MissingHeader "Date")
  /\ parse env_default (bs "From:a@b,c@d" ++ CRLF ++ bs "Date:1 Jan 2000 00:00 +0000" ++ CRLF) = Err (MissingHeader "Sender").
Proof. compute_all. Qed.

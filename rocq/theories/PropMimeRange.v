(* Property C61: which emails are returned by builds with mime. *)
From Coq Require Import Lia.
From Verif Require Import Base Utf8 Time Address MimeFields Fields Entity Email Envs EnvOk Rfc5322 Writers MailSpec ParamSpec MimeMailSpec MimeRange MimeRangeWrite.
Local Open Scope N_scope.

(* ---- C61 ---- *)
(* only such emails are returned *)
Theorem C61_only : forall E data e, env_ok E -> f_mime E = true -> wf_bytes data -> parse E data = Ok e -> mime_mail_value E e.
Proof. exact mime_mail_range. Qed.
Print Assumptions C61_only.
(* and every such email is, up to the order of the parameters *)
Theorem C61_every : forall E e, env_ok E -> f_mime E = true -> mime_mail_value E e -> Forall (unclaimed E) (unknown_fields e) ->
  exists data e', wf_bytes data /\ parse E data = Ok e' /\ same_email e e'.
Proof. exact mime_mail_written. Qed.
Print Assumptions C61_every.
(* with the feature unrecognized-headers, exactly these *)
Theorem C61_returned_emails : forall E e, env_ok E -> f_mime E = true -> f_unrecognized_headers E = true ->
  (exists data e', wf_bytes data /\ parse E data = Ok e' /\ same_email e e') <-> mime_mail_value E e.
Proof. exact mime_mail_values. Qed.
Print Assumptions C61_returned_emails.
Definition mime_range_env : env := mk_env true true false false.
Definition mime_range_date : date_time_t :=
  {| dt_day_name := None; dt_date := {| d_day := 1; d_month := January; d_year := 2020 |};
     dt_time := {| tz_time := {| t_hour := 10; t_minute := 0; t_second := 0 |}; tz_zone := {| z_sign := true; z_hour_offset := 0; z_minute_offset := 0 |} |} |}.
Definition euro : bytes := [226; 130; 172].
(* a subject with a line break, a name that is empty, a parameter that is no ASCII, a binary body *)
Definition mime_range_email (s n f : bytes) : email :=
  {| body_of := None; from := [{| m_name := Some [[]; euro]; m_address := {| a_local_part := bs "j"; a_domain := bs "x" |} |}];
     sender := Some {| m_name := Some [[]; euro]; m_address := {| a_local_part := bs "j"; a_domain := bs "x" |} |}; subject := Some s; date_of := Some mime_range_date;
     to := None; cc := None; bcc := Some []; message_id_of := None; in_reply_to := None; references := None; reply_to := None;
     comments := [[]]; keywords := [[euro]]; trace_of := [];
     mime_entity := Some {| e_mime_type := CUnknown (bs "font"); e_subtype := bs "woff"; e_description := Some euro; e_id := Some (bs "a", bs "b");
       e_parameters := [(n, euro)]; e_disposition := Some {| disposition_type := DAttachment; disp_filename := Some f; disp_creation_date := Some mime_range_date;
         disp_modification_date := None; disp_read_date := None; disp_unstructured := [] |}; e_value := [0; 255; 13]; e_additional_headers := [] |};
     unknown_fields := [(bs "To", CRLF ++ euro)] |}.
Definition mime_range_text : bytes :=
  bs "From: """" =?utf-8?Q?=E2=82=AC?= <j@x>" ++ CRLF ++ bs "Date: 1 Jan 2020 10:00 +0000" ++ CRLF ++ bs "Subject:=?utf-8?Q?=0D=0A=E2=82=AC?=" ++ CRLF ++ bs "Bcc: (none)" ++ CRLF ++
  bs "Comments:" ++ CRLF ++ bs "Keywords: =?utf-8?Q?=E2=82=AC?=" ++ CRLF ++ bs "Content-Type: FONT/woff; Name*0*=utf-8'en'%E2%82%AC" ++ CRLF ++
  bs "Content-Description:=?utf-8?Q?=E2=82=AC?=" ++ CRLF ++ bs "Content-ID: <a@b>" ++ CRLF ++ bs "Content-Disposition: attachment; filename=""a b""; creation-date=""1 Jan 2020 10:00 +0000""" ++ CRLF ++
  bs "To:=?utf-8?Q?=0D=0A=E2=82=AC?=" ++ CRLF ++ CRLF ++ [0; 255; 13].
(* a subject that is no UTF-8, a parameter whose name is not in lower case, a file name that is no ASCII are never returned *)
Example C61_example : let e := mime_range_email (CRLF ++ euro) (bs "name") (bs "a b") in
  parse mime_range_env mime_range_text = Ok e /\ mime_mail_value mime_range_env e /\
  (~ exists data e', wf_bytes data /\ parse mime_range_env data = Ok e' /\ same_email (mime_range_email [130] (bs "name") (bs "a b")) e') /\
  (~ exists data e', wf_bytes data /\ parse mime_range_env data = Ok e' /\ same_email (mime_range_email (bs "a") (bs "Name") (bs "a b")) e') /\
  (~ exists data e', wf_bytes data /\ parse mime_range_env data = Ok e' /\ same_email (mime_range_email (bs "a") (bs "name") euro) e').
Proof.
  cbv zeta. assert (K : env_ok mime_range_env) by (apply mk_env_ok; reflexivity).
  assert (P : parse mime_range_env mime_range_text = Ok (mime_range_email (CRLF ++ euro) (bs "name") (bs "a b"))) by (vm_compute; reflexivity).
  split; [exact P|]. split; [|split; [|split]].
  - apply (C61_only mime_range_env mime_range_text _ K eq_refl); [|exact P]. apply Forall_forall. intros x Hx. vm_compute in Hx. unfold wf_byte. lia.
  - intros H. apply (C61_returned_emails mime_range_env _ K eq_refl eq_refl) in H. apply mv_subject in H. destruct H as [_ H]. discriminate H.
  - intros H. apply (C61_returned_emails mime_range_env _ K eq_refl eq_refl) in H. apply mv_mime in H. destruct H as (r & [= <-] & H). apply ent_parameters in H. destruct (H (bs "Name") euro eq_refl) as [[_ X] _]. discriminate X.
  - intros H. apply (C61_returned_emails mime_range_env _ K eq_refl eq_refl) in H. apply mv_mime in H. destruct H as (r & [= <-] & H). apply ent_disposition in H. destruct H as [_ H]. apply dsp_filename in H. destruct H as [_ H].
    inversion H as [|x l X _]; subst. unfold printable, rfc_VCHAR, rfc_WSP in X. lia.
Qed.

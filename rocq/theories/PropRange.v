(* Property C47: which emails are returned by builds without mime. *)
From Coq Require Import Lia.
From Verif Require Import Base Time Address Fields Email Envs EnvOk Rfc5322 Writers MailSpec RangeFacts RangeWrite.
Local Open Scope N_scope.

(* ---- C47 ---- *)
Theorem C47_returned_emails : forall E e, env_ok E -> f_mime E = false -> (exists data, parse E data = Ok e) <-> mail_value E e.
Proof. exact mail_values. Qed.
Print Assumptions C47_returned_emails.
(* two trace blocks, a group, a name with a quote, a malformed To header kept as unknown *)
Definition mail_range_text : bytes :=
  bs "Return-Path: <>" ++ CRLF ++ bs "Received: from ""a b"" by [1.2.3.4]; 2 Jan 2020 10:00 +0000" ++ CRLF ++ bs "Resent-From: a@b" ++ CRLF ++
  bs "Received:; 1 Jan 2020 10:00 +0000" ++ CRLF ++
  bs "From: ""J \""R\"""" Doe <j@[x y]>, b@c" ++ CRLF ++ bs "Date: 1 Jan 2020 10:00 +0000" ++ CRLF ++ bs "Sender: b@c" ++ CRLF ++
  bs "Cc: all: a@b;" ++ CRLF ++ bs "Bcc: (none)" ++ CRLF ++ bs "To: nobody " ++ CRLF ++ bs "Subject: hello  " ++ CRLF ++ CRLF ++ bs "body".
Definition range_date (d : N) : date_time_t :=
  {| dt_day_name := None; dt_date := {| d_day := d; d_month := January; d_year := 2020 |};
     dt_time := {| tz_time := {| t_hour := 10; t_minute := 0; t_second := 0 |}; tz_zone := {| z_sign := true; z_hour_offset := 0; z_minute_offset := 0 |} |} |}.
Definition range_box (l d : string) : mailbox_t := {| m_name := None; m_address := {| a_local_part := bs l; a_domain := bs d |} |}.
Definition mail_range_email (s : string) : email :=
  {| body_of := Some (bs "body");
     from := [{| m_name := Some [bs "J ""R"""; bs "Doe"]; m_address := {| a_local_part := bs "j"; a_domain := bs "xy" |} |}; range_box "b" "c"];
     sender := Some (range_box "b" "c"); subject := Some (bs s); date_of := Some (range_date 1);
     to := None; cc := Some [AGroup ([bs "all"], [range_box "a" "b"])]; bcc := Some []; message_id_of := None; in_reply_to := None; references := None; reply_to := None;
     comments := []; keywords := [];
     trace_of := [(Some None, [([RWord (bs "from"); RWord (bs "a b"); RWord (bs "by"); RDomain (bs "1.2.3.4")], range_date 2)], [TFrom [range_box "a" "b"]]);
                  (None, [([], range_date 1)], [])];
     mime_entity := None; unknown_fields := [(bs "To", bs " nobody")] |}.
Example C47_example : parse env_default mail_range_text = Ok (mail_range_email " hello") /\ mail_value env_default (mail_range_email " hello") /\
  ~ exists data, parse env_default data = Ok (mail_range_email " hello ").
Proof.
  assert (P : parse env_default mail_range_text = Ok (mail_range_email " hello")) by (vm_compute; reflexivity).
  split; [exact P|]. split.
  - apply (C47_returned_emails env_default _ env_default_ok eq_refl). exists mail_range_text. exact P.
  - intros H. apply (C47_returned_emails env_default _ env_default_ok eq_refl) in H. apply val_subject in H. destruct H as [_ [_ H]]. apply (H (bs " hello") 32); [reflexivity|]. left. reflexivity.
Qed.

(* Properties C23, C25: the dates returned. *)
From Verif Require Import Base Utf8 Combinators Time Fields Message Entity Email Envs EnvOk Rfc5322 RfcFields EmailSpec GrammarFacts.
Local Open Scope N_scope.
Ltac compute_all := lazymatch goal with |- _ /\ _ => split; compute_all | _ => vm_compute; reflexivity end.

(* ---- C23: ranges ---- *)
Theorem C23_date_ranges : forall E i r d, date_time E i = Ok (r, d) -> date_in_range d.
Proof. exact date_range. Qed.
Print Assumptions C23_date_ranges.
(* every date in an email: Date, Received, Resent-Date, the dates of a Content-Disposition *)
Theorem C23_email_dates : forall E data e d, env_ok E -> parse E data = Ok e -> In d (email_dates e) -> date_in_range d.
Proof. exact parse_dates. Qed.
Print Assumptions C23_email_dates.
(* the stronger reading is false: day 0 *)
Theorem C23_day_at_least_one_refuted : exists text r d, forall E, date_time E text = Ok (r, d) /\ d_day (dt_date d) = 0.
Proof.
  exists (bs "0 Jan 2000 00:00 +0000"), [], {| dt_day_name := None; dt_date := {| d_day := 0; d_month := January; d_year := 2000 |};
    dt_time := {| tz_time := {| t_hour := 0; t_minute := 0; t_second := 0 |}; tz_zone := {| z_sign := true; z_hour_offset := 0; z_minute_offset := 0 |} |} |}.
  intros E. split; reflexivity.
Qed.
Print Assumptions C23_day_at_least_one_refuted.
Example C23_example : exists e d d',
  parse env_default (bs "Received: x; 31 Dec 1999 23:59:60 -9959" ++ CRLF ++ bs "From:a@b" ++ CRLF ++ bs "Date: Sat, 1 Jan 2000 00:00 +0100" ++ CRLF) = Ok e
  /\ email_dates e = [d; d'] /\ d_year (dt_date d) = 2000 /\ t_second (tz_time (dt_time d')) = 60 /\ z_hour_offset (tz_zone (dt_time d')) = 99.
Proof. do 3 eexists. compute_all. Qed.

(* ---- C25: conformance ---- *)
Theorem C25_dates_conform : forall E i r d, date_time E i = Ok (r, d) -> exists c, i = c ++ r /\ rfc_date_time c d.
Proof. exact date_conforms. Qed.
Print Assumptions C25_dates_conform.
Example C25_example : exists d, date_time env_default (bs "fri," ++ CRLF ++ bs " 5 mAY 02023 18:58 -0130(x)y") = Ok (bs "y", d)
  /\ dt_day_name d = Some Friday /\ d_year (dt_date d) = 2023 /\ z_minute_offset (tz_zone (dt_time d)) = 30.
Proof. eexists. compute_all. Qed.

(* Property C71: mails whose date is in an obsolete form or before 1990. *)
From Coq Require Import Lia.
From Verif Require Import Base Utf8 Time Address MimeFields Fields Message Entity Email Envs EnvOk Rfc5322 CodecSpec RfcFields EmailSpec Complete CompleteFields LocalSpec Writers LineSpec ObsoleteSpec ObsoleteFacts.
Local Open Scope N_scope.

(* ---- C71 ---- *)
(* a mail that is accepted is refused, for want of a date, once its date is replaced by a text without a
   numeric zone or without a year from 1990 on *)
Theorem C71_refused : forall E pre g d n c v post e, env_ok E -> debug E = false \/ f_mime E = false -> Forall proper_line pre -> new_line post ->
  f_date E = true -> rfc_header "Date" (tidily rfc_date_value) g d -> same_nocase n (bs "Date") -> undated c -> (f_unrecognized_headers E = true -> no_encoded c) -> unfolded c v ->
  parse E (block_text pre ++ g ++ post) = Ok e -> parse E (block_text pre ++ n ++ bs ":" ++ c ++ CRLF ++ post) = Err (MissingHeader "Date").
Proof. exact date_replaced. Qed.
Print Assumptions C71_refused.
(* such are the dates of RFC 5322 4.3 with a named zone, and those with a short or early year *)
Theorem C71_forms : forall c, named_zone c \/ early_year c -> undated c.
Proof. exact date_obsolete. Qed.
Print Assumptions C71_forms.
(* wherever the header stands it is not recognised *)
Theorem C71_malformed : forall E n c, same_nocase n (bs "Date") -> undated c -> malformed E (n ++ bs ":" ++ c ++ CRLF).
Proof. exact date_malformed. Qed.
Print Assumptions C71_malformed.
(* the same for a From header without "@" (C22) *)
Theorem C71_from : forall E pre g l n c v post e, env_ok E -> debug E = false \/ f_mime E = false -> Forall proper_line pre -> new_line post ->
  f_from E = true -> clear_field E g (FFrom l) -> same_nocase n (bs "From") -> ~ In 64 c -> (f_unrecognized_headers E = true -> no_encoded c) -> unfolded c v ->
  parse E (block_text pre ++ g ++ post) = Ok e -> parse E (block_text pre ++ n ++ bs ":" ++ c ++ CRLF ++ post) = Err (MissingHeader "From").
Proof. exact from_lost. Qed.
Print Assumptions C71_from.

Definition zone_value : bytes := bs " Fri, 5 May 2023 18:58:00 GMT".
Definition short_value : bytes := bs " Fri, 5 May 23 18:58:00 +0200".
Definition old_value : bytes := bs " 5 May 1989 18:58 +0200".
Definition dated (v : bytes) : bytes := bs "From: a@b" ++ CRLF ++ bs "Date:" ++ v ++ CRLF ++ CRLF ++ bs "x".
Definition good_value : bytes := bs " Fri, 5 May 2023 18:58:00 +0000".
Ltac name_in n := apply (name_intro _ (bs n)); [vm_compute; tauto|reflexivity].
Ltac digits := split; [vm_compute; lia|]; split; [repeat (apply Forall_cons; [unfold rfc_DIGIT; vm_compute; split; discriminate|]); apply Forall_nil|reflexivity].
Ltac blanks := apply FWS_plain; split; [discriminate|]; repeat (apply Forall_cons; [unfold rfc_WSP; vm_compute; tauto|]); apply Forall_nil.
Example C71_example : named_zone zone_value /\ early_year short_value /\ early_year old_value /\
  (exists d, rfc_header "Date" (tidily rfc_date_value) (bs "Date:" ++ good_value ++ CRLF) d) /\ unfolded zone_value zone_value /\ no_encoded zone_value /\
  forall E, In E [env_default; env_mime] -> env_ok E /\ debug E = false /\ f_date E = true /\ (exists e, parse E (dated good_value) = Ok e) /\
    Forall (fun v => parse E (dated v) = Err (MissingHeader "Date")) [zone_value; short_value; old_value].
Proof.
  split; [|split; [|split; [|split; [|split; [|split]]]]].
  - apply (named_zone_intro (bs " Fri,") (Some Friday) (bs " 5 May 2023 ") {| d_day := 5; d_month := May; d_year := 2023 |} (bs "18:58:00") {| t_hour := 18; t_minute := 58; t_second := 0 |} (bs " ") (bs " ") (bs "GMT")).
    + apply (day_of_week_some (bs " ") (bs " ") (bs "Fri")); [apply oFWS_some; blanks|name_in "Fri"%string].
    + apply (date_intro (bs " ") (bs " ") (bs "5") 5 (bs " ") (bs " ") (bs "May") May (bs " ") (bs " ") (bs "2023") 2023 (bs " ") (bs " ")); [apply oFWS_some; blanks|digits|blanks|name_in "May"%string|blanks|vm_compute; lia| |reflexivity|blanks].
      repeat (apply Forall_cons; [unfold rfc_DIGIT; vm_compute; split; discriminate|]); apply Forall_nil.
    + apply (time_hms (bs "18") 18 (bs "58") 58 (bs "00") 0); digits.
    + blanks.
    + split; [discriminate|]. repeat (apply Forall_cons; [unfold rfc_ALPHA; vm_compute; left; split; discriminate|]); apply Forall_nil.
  - apply (early_year_intro [bs "Fri,"] (bs "5") 5 (bs "May") May (bs "23") (bs "18:58:00") {| t_hour := 18; t_minute := 58; t_second := 0 |} true (bs "02") 2 (bs "00") 0).
    + right. exists (bs "Fri"), Friday. split; [name_in "Fri"%string|reflexivity].
    + digits.
    + name_in "May"%string.
    + split; [discriminate|]. repeat (apply Forall_cons; [unfold rfc_DIGIT; vm_compute; split; discriminate|]); apply Forall_nil.
    + left. vm_compute. lia.
    + apply (time_hms (bs "18") 18 (bs "58") 58 (bs "00") 0); digits.
    + digits.
    + digits.
  - apply (early_year_intro [] (bs "5") 5 (bs "May") May (bs "1989") (bs "18:58") {| t_hour := 18; t_minute := 58; t_second := 0 |} true (bs "02") 2 (bs "00") 0).
    + now left.
    + digits.
    + name_in "May"%string.
    + split; [discriminate|]. repeat (apply Forall_cons; [unfold rfc_DIGIT; vm_compute; split; discriminate|]); apply Forall_nil.
    + right. vm_compute. reflexivity.
    + apply (time_hm (bs "18") 18 (bs "58") 58); digits.
    + digits.
    + digits.
  - exists {| dt_day_name := Some Friday; dt_date := {| d_day := 5; d_month := May; d_year := 2023 |}; dt_time := {| tz_time := {| t_hour := 18; t_minute := 58; t_second := 0 |}; tz_zone := {| z_sign := true; z_hour_offset := 0; z_minute_offset := 0 |} |} |}.
    apply (header_intro "Date" _ (bs "Date") good_value); [reflexivity|]. split; [split|].
    + apply (date_time_intro (bs " Fri,") (Some Friday) (bs " 5 May 2023 ") {| d_day := 5; d_month := May; d_year := 2023 |} (bs "18:58:00") {| t_hour := 18; t_minute := 58; t_second := 0 |} (bs " +0000") {| z_sign := true; z_hour_offset := 0; z_minute_offset := 0 |} []).
      * apply (day_of_week_some (bs " ") (bs " ") (bs "Fri")); [apply oFWS_some; blanks|name_in "Fri"%string].
      * apply (date_intro (bs " ") (bs " ") (bs "5") 5 (bs " ") (bs " ") (bs "May") May (bs " ") (bs " ") (bs "2023") 2023 (bs " ") (bs " ")); [apply oFWS_some; blanks|digits|blanks|name_in "May"%string|blanks|vm_compute; lia| |reflexivity|blanks].
        repeat (apply Forall_cons; [unfold rfc_DIGIT; vm_compute; split; discriminate|]); apply Forall_nil.
      * apply (time_hms (bs "18") 18 (bs "58") 58 (bs "00") 0); digits.
      * apply (zone_intro (bs " ") (bs " ") true (bs "00") 0 (bs "00") 0); [blanks|digits|digits].
      * constructor.
    + unfold date_in_range. cbn. lia.
    + intros a w Ha [Nw Hw]. exfalso. destruct (exists_last Nw) as (w' & x & ->). apply Forall_app in Hw as [_ Hw]. inversion Hw as [|x' l Hx _]; subst. rewrite app_assoc in Ha.
      change good_value with (bs " Fri, 5 May 2023 18:58:00 +000" ++ [48]) in Ha. apply app_inj_tail in Ha as [_ <-]. unfold rfc_WSP in Hx. lia.
  - apply (unfolded_intro zone_value []); [|constructor|].
    + apply Forall_forall. intros x Hx. vm_compute in Hx. unfold printable, rfc_VCHAR, rfc_WSP. lia.
    + cbn [concat]. rewrite app_nil_r. exists []. split; [now rewrite app_nil_r|]. split; [constructor|]. intros a b H. change zone_value with (bs " Fri, 5 May 2023 18:58:00 GM" ++ [84]) in H. apply app_inj_tail in H as [_ <-]. unfold rfc_WSP. lia.
  - intros a b Ha. assert (I : In 61 zone_value) by (rewrite Ha; apply in_or_app; right; now left). vm_compute in I. lia.
  - intros E HE. cbn [In] in HE. destruct HE as [<-|[<-|[]]].
    + split; [exact env_default_ok|]. split; [reflexivity|]. split; [reflexivity|]. split; [eexists; vm_compute; reflexivity|]. repeat (apply Forall_cons; [vm_compute; reflexivity|]). apply Forall_nil.
    + split; [exact env_mime_ok|]. split; [reflexivity|]. split; [reflexivity|]. split; [eexists; vm_compute; reflexivity|]. repeat (apply Forall_cons; [vm_compute; reflexivity|]). apply Forall_nil.
Qed.

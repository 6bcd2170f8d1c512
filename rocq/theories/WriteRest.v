(* Dates, identifiers, quoted strings and keywords written as in Writers.v are read back,
   and white space and comments around tokens make no difference. *)
From Coq Require Import Lia ZifyBool ZifyNat ZifyN.
From Verif Require Import Base Utf8 CharSets Combinators Whitespace QuotedString Common Time Address MimeFields Fields
  Rfc5322 Rfc2047 Post CodecSpec RfcFields SoundBase SoundTime SoundAddr TagNoCase SoundFields Steps Complete CompleteFields Forward ForwardText ForwardAddr ForwardList ForwardTime ForwardMime ForwardMimeFields ForwardTrace ForwardFields Writers WriteFacts WriteAddr.
Local Open Scope N_scope.

(* ---- decimal numbers ---- *)
Lemma decimal_length : forall k n, length (decimal k n) = k.
Proof. induction k as [|k IH]; intros n; [reflexivity|]. cbn [decimal]. rewrite app_length, IH. cbn. lia. Qed.
Lemma decimal_digits : forall k n, chars rfc_DIGIT (decimal k n).
Proof.
  induction k as [|k IH]; intros n; [constructor|]. cbn [decimal]. apply Forall_app. split; [apply IH|]. constructor; [|constructor].
  pose proof (N.mod_upper_bound n 10). unfold rfc_DIGIT. lia.
Qed.
Lemma number_snoc : forall l c, number (l ++ [c]) = number l * 10 + (c - 48).
Proof.
  induction l as [|x l IH]; intros c; [cbn; lia|]. cbn [app number]. rewrite IH, app_length. cbn [length]. rewrite Nat.add_1_r, Nat2N.inj_succ, N.pow_succ_r'. lia.
Qed.
Lemma number_decimal : forall k n, n < 10 ^ N.of_nat k -> number (decimal k n) = n.
Proof.
  induction k as [|k IH]; intros n H; [cbn in *; lia|]. cbn [decimal]. rewrite number_snoc. rewrite Nat2N.inj_succ, N.pow_succ_r' in H.
  rewrite IH by (apply N.div_lt_upper_bound; lia). pose proof (N.div_mod' n 10). lia.
Qed.
Lemma decimal_rfc : forall lo hi k n, (lo <= k <= hi)%nat -> n < 10 ^ N.of_nat k -> rfc_digits lo hi (decimal k n) n.
Proof. intros lo hi k n Hk Hn. split; [now rewrite decimal_length|]. split; [apply decimal_digits|]. symmetry. now apply number_decimal. Qed.
Lemma decimal_ink : forall k n, ends_ink (decimal (S k) n).
Proof. intros k n. cbn [decimal]. apply ink_one. unfold rfc_WSP. lia. Qed.
(* ---- dates ---- *)
Lemma space_FWS : rfc_FWS (bs " ") (bs " ").
Proof. constructor. split; [discriminate|apply blank1]. Qed.
#[local] Hint Resolve space_FWS : core.
Lemma date_written : forall s c d, chars rfc_WSP s -> written_date c d -> date_in_range d -> rfc_date_value (s ++ c) d.
Proof.
  intros s c d Hs H HR. split; [|exact HR]. destruct H as [c w kd d n c' m ky y h mi c'' se sg zh zm Hw Hkd Hd Hn Hc' Hky Hy Hse]. destruct HR as (R1 & R2 & R3 & R4 & R5 & R6 & R7). cbn in R1, R2, R3, R4, R5, R6, R7.
  assert (B : forall x, x <= 99 -> rfc_digits 2 2 (decimal 2 x) x) by (intros x Hx; apply decimal_rfc; [lia|cbn; lia]).
  set (t := decimal 2 h ++ bs ":" ++ decimal 2 mi ++ c''). set (z := bs " " ++ bs (if sg then "+" else "-") ++ decimal 2 zh ++ decimal 2 zm).
  assert (T : rfc_time_of_day t {| t_hour := h; t_minute := mi; t_second := se |}).
  { unfold t. destruct Hse as [|se]; [rewrite app_nil_r; constructor; apply B; lia|]. apply time_hms; apply B; lia. }
  assert (Z : rfc_zone z {| z_sign := sg; z_hour_offset := zh; z_minute_offset := zm |}). { unfold z. apply (zone_intro _ (bs " ")); auto; apply B; lia. }
  assert (D : forall w0, chars rfc_WSP w0 -> rfc_date (w0 ++ decimal kd d ++ bs " " ++ c' ++ bs " " ++ decimal ky y ++ bs " ") {| d_day := d; d_month := m; d_year := y |}).
  { intros w0 H0. apply (date_intro w0 w0 _ d (bs " ") (bs " ") c' m (bs " ") (bs " ") (decimal ky y) y (bs " ") (bs " ")); auto.
    - apply decimal_rfc; auto. lia.
    - econstructor; eauto.
    - now rewrite decimal_length.
    - apply decimal_digits.
    - symmetry. now apply number_decimal. }
  assert (J : forall c0 w0, rfc_day_of_week c0 w -> chars rfc_WSP w0 -> s ++ c = c0 ++ w0 ->
    rfc_date_time (s ++ c ++ decimal kd d ++ bs " " ++ c' ++ bs " " ++ decimal ky y ++ bs " " ++ t ++ z)
      {| dt_day_name := w; dt_date := {| d_day := d; d_month := m; d_year := y |};
         dt_time := {| tz_time := {| t_hour := h; t_minute := mi; t_second := se |}; tz_zone := {| z_sign := sg; z_hour_offset := zh; z_minute_offset := zm |} |} |}).
  { intros c0 w0 H0 Hw0 Eq. rewrite (app_assoc s c), Eq.
    replace ((c0 ++ w0) ++ decimal kd d ++ bs " " ++ c' ++ bs " " ++ decimal ky y ++ bs " " ++ t ++ z)
      with (c0 ++ (w0 ++ decimal kd d ++ bs " " ++ c' ++ bs " " ++ decimal ky y ++ bs " ") ++ t ++ z ++ []) by (rewrite app_nil_r, <- !app_assoc; reflexivity).
    constructor; auto. }
  unfold t, z in J. rewrite <- !app_assoc in J. destruct Hw as [|dn cw dw H1 H2].
  - apply (J [] s); auto; [constructor|apply app_nil_r].
  - apply (J (s ++ cw ++ bs ",") (bs " ")); auto; [|rewrite <- !app_assoc; reflexivity]. apply (day_of_week_some s s); auto. econstructor; eauto.
Qed.
Lemma date_ink : forall c d, written_date c d -> ends_ink c.
Proof. intros c d []. do 14 apply ink_app. apply (decimal_ink 1). Qed.
Lemma date_read : forall E n c d i, same_nocase n (bs "Date") -> written_date c d -> date_in_range d -> no_blank i -> field_date E (n ++ bs ": " ++ c ++ CRLF ++ i) = Ok (i, d).
Proof.
  intros E n c d i Hn H HR Hi. apply header_read with (name := "Date"%string); auto. rewrite app_assoc. apply date_time_forward; [now apply date_written|].
  apply written_follows; auto. eapply date_ink; eauto.
Qed.
Lemma some_date : forall d, date_in_range d -> exists c, written_date c d.
Proof.
  intros [w [d m y] [[h mi s] [sg zh zm]]] (R1 & R2 & R3 & R4 & R5 & R6 & R7). cbn in R1, R2, R3, R4, R5, R6, R7.
  assert (W : exists c, written_day_name c w).
  { destruct w as [w|]; [|eexists; constructor]. exists (match w with Monday => bs "Mon, " | Tuesday => bs "Tue, " | Wednesday => bs "Wed, " | Thursday => bs "Thu, " | Friday => bs "Fri, " | Saturday => bs "Sat, " | Sunday => bs "Sun, " end).
    destruct w; match goal with |- written_day_name (bs ?x) _ => let y := eval vm_compute in (String.substring 0 3 x) in change (bs x) with (bs y ++ bs ", "); apply (some_day_name (bs y)); [cbn; tauto|reflexivity] end. }
  assert (M : exists n, In (n, m) rfc_month_names). { destruct m; eexists; cbn; eauto 15. }
  destruct W as [c Hc], M as [n Hn]. eexists. apply written_date_intro with (kd := 2%nat) (ky := 20%nat) (n := n) (c' := n) (c := c); [exact Hc|now right|change (10 ^ N.of_nat 2) with 100; lia|exact Hn|reflexivity|lia|change (10 ^ N.of_nat 20) with 100000000000000000000; change (2 ^ 64) with 18446744073709551616 in R2; lia|apply some_second].
Qed.
(* ---- identifiers ---- *)
Lemma id_right_written : forall compat c b, written_domain c b -> rfc_id_right compat c b.
Proof. intros compat c b [d H|d H]; [constructor; now apply dot_text_compat|now apply id_right_literal]. Qed.
Lemma id_written : forall compat s c i w, chars rfc_WSP s -> chars rfc_WSP w -> written_id c i -> rfc_msg_id compat (s ++ c ++ w) i.
Proof.
  intros compat s c i w Hs Hw [a c' b Ha Hc]. change (bs "<") with [60]. change (bs "@") with [64]. change (bs ">") with [62]. rewrite <- !app_assoc.
  constructor; auto; [now apply dot_text_compat|now apply id_right_written].
Qed.
Lemma ids_written : forall compat c l, written_ids c l -> forall s, chars rfc_WSP s -> many_of (rfc_msg_id compat) (s ++ c) l.
Proof.
  intros compat c l H. induction H as [c i H|c i w cs l H Hw _ IH]; intros s Hs.
  - rewrite <- (app_nil_r (s ++ c)). constructor; [|constructor]. rewrite <- (app_nil_r c). now apply id_written.
  - rewrite app_assoc. constructor; [|now apply IH]. rewrite <- (app_nil_r c). now apply id_written.
Qed.
Lemma id_ink : forall c i, written_id c i -> ends_ink c.
Proof. intros c i []. change (bs ">") with [62]. ink. Qed.
Lemma ids_ink : forall c l, written_ids c l -> ends_ink c.
Proof. intros c l H. induction H; [eapply id_ink; eauto|]. now do 2 apply ink_app. Qed.
Lemma message_id_read : forall E n c v i, same_nocase n (bs "Message-ID") -> written_id c v -> no_blank i -> field_message_id E (n ++ bs ": " ++ c ++ CRLF ++ i) = Ok (i, v).
Proof.
  intros E n c v i Hn H Hi. apply header_read with (name := "Message-ID"%string); auto. rewrite app_assoc. apply message_id_forward; [|apply written_follows; auto; eapply id_ink; eauto].
  rewrite <- (app_nil_r c). now apply id_written.
Qed.
Lemma ids_read : forall E c l i, written_ids c l -> no_blank i -> many1 (message_id E) (bs " " ++ c ++ CRLF ++ i) = Ok (CRLF ++ i, l).
Proof.
  intros E c l i H Hi. rewrite app_assoc. apply message_ids_forward; [|apply written_follows; auto; eapply ids_ink; eauto|reflexivity].
  split; [destruct H; discriminate|]. now apply ids_written.
Qed.
Lemma in_reply_to_read : forall E n c l i, same_nocase n (bs "In-Reply-To") -> written_ids c l -> no_blank i -> field_in_reply_to E (n ++ bs ": " ++ c ++ CRLF ++ i) = Ok (i, l).
Proof. intros. apply header_read with (name := "In-Reply-To"%string); auto. now apply ids_read. Qed.
Lemma references_read : forall E n c l i, same_nocase n (bs "References") -> written_ids c l -> no_blank i -> field_references E (n ++ bs ": " ++ c ++ CRLF ++ i) = Ok (i, l).
Proof. intros. apply header_read with (name := "References"%string); auto. now apply ids_read. Qed.
(* ---- keywords ---- *)
Lemma keywords_written : forall mime EW s c l, chars rfc_WSP s -> written_keywords c l -> clear_keywords mime EW (s ++ c) l.
Proof. intros mime EW s c l Hs H. eapply list_clear; eauto. intros. now apply words_clear. Qed.
Lemma keywords_read : forall E n c l i, same_nocase n (bs "Keywords") -> written_keywords c l -> no_blank i -> field_keywords E (n ++ bs ": " ++ c ++ CRLF ++ i) = Ok (i, l).
Proof.
  intros E n c l i Hn H Hi. apply header_read with (name := "Keywords"%string); auto. rewrite app_assoc. apply keywords_forward; [now apply keywords_written|].
  apply written_follows; auto. eapply list_ink; [|exact H]. apply words_ink.
Qed.
(* ---- white space and comments around tokens ---- *)
Lemma delimited_follows : forall r i, delimited r i -> follows r i.
Proof.
  intros r i [|c t Hc N|t Hr Hi].
  - split; [split; exact I|now left].
  - now apply follows_head'.
  - apply tidy_follows; auto. now apply no_blank_ends.
Qed.
Lemma no_dot_plain : forall i, no_dot_atom i -> plain_end i.
Proof.
  intros [|c i] H; [now split|]. destruct (H c i eq_refl) as [H1 H2]. split; unfold ends; [|apply N.eqb_neq; congruence]. destruct (is_atext c) eqn:X; [|reflexivity]. apply atext_spec in X. contradiction.
Qed.
Lemma atom_anywhere : forall l a r i, rfc_oCFWS l -> chars1 rfc_atext a -> rfc_oCFWS r -> delimited r i -> (r = [] -> no_dot_atom i) ->
  atom (l ++ a ++ r ++ i) = Ok (i, a).
Proof. intros. apply atom_forward; auto; [now apply delimited_follows|]. intros X. now apply no_dot_plain, H3. Qed.
Lemma dot_atom_anywhere : forall E l a r i, rfc_oCFWS l -> rfc_dot_atom_text (f_compatibility_fixes E) a -> rfc_oCFWS r -> delimited r i -> (r = [] -> no_dot_atom i) ->
  dot_atom E (l ++ a ++ r ++ i) = Ok (i, a).
Proof.
  intros E l a r i Hl Ha Hr Hf Hi. destruct (dot_atom_text_chars _ _ Ha) as [Va Sa]. unfold dot_atom.
  rewrite (skip_cfws_forward l); [|auto|apply starts_visible_follows; now apply starts_visible_app]. cbn [bind].
  rewrite dot_atom_text_forward; [|auto|apply oCFWS_ends; auto; intros X; apply no_dot_plain; auto|apply oCFWS_ends; auto; intros X; apply no_dot_plain; auto]. cbn [bind].
  rewrite (skip_cfws_forward r) by (auto; now apply delimited_follows). reflexivity.
Qed.
Lemma quoted_anywhere : forall l b v r i, rfc_oCFWS l -> quoting b v -> rfc_oCFWS r -> delimited r i ->
  quoted_string (l ++ [34] ++ b ++ [34] ++ r ++ i) = Ok (i, v).
Proof.
  intros l b v r i Hl Hb Hr Hf. rewrite (quoted_string_core l b v) by (auto; now apply quoting_qbody).
  rewrite (skip_cfws_forward r i) by (auto; now apply delimited_follows). reflexivity.
Qed.
Lemma id_anywhere : forall E l c v r i, rfc_oCFWS l -> written_id c v -> rfc_oCFWS r -> delimited r i ->
  message_id E (l ++ c ++ r ++ i) = Ok (i, v).
Proof.
  intros E l c v r i Hl [a c' b Ha Hc] Hr Hf. change (bs "<") with [60]. change (bs "@") with [64]. change (bs ">") with [62].
  replace (l ++ ([60] ++ a ++ [64] ++ c' ++ [62]) ++ r ++ i) with ((l ++ [60] ++ a ++ [64] ++ c' ++ [62] ++ r) ++ i) by (now rewrite <- !app_assoc).
  apply message_id_forward; [constructor; auto; [now apply dot_text_compat|now apply id_right_written]|].
  replace (l ++ [60] ++ a ++ [64] ++ c' ++ [62] ++ r) with ((l ++ [60] ++ a ++ [64] ++ c') ++ [62] ++ r) by (now rewrite <- !app_assoc).
  apply follows_after1; [unfold visible; lia|]. now apply delimited_follows.
Qed.
Lemma quoted_back : forall b v i, quoting b v -> delimited [] i -> quoted_string ([34] ++ b ++ [34] ++ i) = Ok (i, v).
Proof. intros b v i H Hi. apply (quoted_anywhere [] b v [] i); auto. Qed.

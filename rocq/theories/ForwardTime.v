(* Completeness, part 5: dates and times. *)
From Coq Require Import ZArith Lia ZifyBool ZifyNat ZifyN.
From Verif Require Import Base Utf8 Combinators CharSets Whitespace Time Rfc5322 RfcFields Post CodecArith Base64Proofs QPProofs PercentProofs SoundBase SoundTime TagNoCase Forward ForwardText ForwardAddr.
Local Open Scope N_scope.

Ltac use1 f H := match goal with |- context [f ?x] => match type of H with _ = ?r => replace (f x) with r by (symmetry; exact H) end end.
Lemma digit_forward : forall c r, rfc_DIGIT c -> digit (c :: r) = Ok (r, c - 48).
Proof. intros c r H. unfold digit. apply digit_spec in H. now rewrite H. Qed.
Lemma digit_none : forall r, ends is_digit r -> exists e, digit r = Err e.
Proof. intros [|c r] H; cbn in *; [eauto|]. rewrite H. eauto. Qed.
Lemma two_digits_forward : forall E c v r, rfc_digits 2 2 c v -> two_digits E (c ++ r) = Ok (r, v).
Proof.
  intros E c v r (L & H & ->). destruct c as [|x [|y [|z c]]]; cbn [length] in L; try lia. inversion H as [|? ? Hx Hr]; subst. inversion Hr as [|? ? Hy _]; subst.
  unfold two_digits. cbn [app]. rewrite digit_forward by auto. cbn [bind]. rewrite digit_forward by auto. cbn [bind]. unfold rfc_DIGIT in *.
  rewrite u8_mul_ok by lia. cbn [bind]. rewrite u8_add_ok by lia. cbn [bind number length]. change (10 ^ N.of_nat 1) with 10. change (10 ^ N.of_nat 0) with 1.
  replace ((x - 48) * 10 + (y - 48)) with ((x - 48) * 10 + ((y - 48) * 1 + 0)) by lia. reflexivity.
Qed.
Lemma name3_forward : forall A (table rfc : list (bytes * A)) e1 e2 c v r,
  (forall n a, In (n, a) rfc -> length n = 3%nat /\ map_get table (map fold_case n) = Some a) -> rfc_name rfc c v ->
  (if (3 <=? length (c ++ r))%nat then
     match map_get table (lowercase (firstn 3 (c ++ r))) with Some d => Ok (skipn 3 (c ++ r), d) | None => Err e1 end
   else Err e2) = Ok (r, v).
Proof.
  intros A table rfc e1 e2 c v r H [n c' a Hn Hc]. apply H in Hn as [Ln Hm]. assert (L : length c' = 3%nat).
  { apply nocase_length in Hc. lia. }
  rewrite app_length. destruct (Nat.leb_spec 3 (length c' + length r)); [|lia]. rewrite <- L at 1. rewrite firstn_app, firstn_all, Nat.sub_diag. cbn [firstn]. rewrite app_nil_r.
  rewrite lowercase_fold. unfold same_nocase in Hc. rewrite <- Hc, Hm. rewrite <- L. rewrite skipn_app, skipn_all, Nat.sub_diag. reflexivity.
Qed.
Lemma day_name_forward : forall c v r, rfc_name rfc_day_names c v -> day_name (c ++ r) = Ok (r, v).
Proof.
  intros. unfold day_name. apply name3_forward with (rfc := rfc_day_names); auto. intros n a Hn. unfold rfc_day_names in Hn. cbn [In] in Hn.
  repeat (destruct Hn as [Hn|Hn]; [injection Hn as <- <-; split; reflexivity|]). destruct Hn.
Qed.
Lemma month_forward : forall c v r, rfc_name rfc_month_names c v -> month (c ++ r) = Ok (r, v).
Proof.
  intros. unfold month. apply name3_forward with (rfc := rfc_month_names); auto. intros n a Hn. unfold rfc_month_names in Hn. cbn [In] in Hn.
  repeat (destruct Hn as [Hn|Hn]; [injection Hn as <- <-; split; reflexivity|]). destruct Hn.
Qed.
Lemma name_head : forall A (rfc : list (bytes * A)) c v, (forall n a, In (n, a) rfc -> exists x t, n = x :: t /\ 65 <= x <= 90) -> rfc_name rfc c v ->
  exists x t, c = x :: t /\ (65 <= x <= 90 \/ 97 <= x <= 122).
Proof.
  intros A rfc c v H [n c' a Hn Hc]. apply H in Hn as (x & t & -> & Hx). destruct c' as [|y c']; [discriminate|]. unfold same_nocase in Hc. cbn [map] in Hc.
  injection Hc as Hc _. exists y, c'. split; auto. revert Hc. unfold fold_case. destruct (65 <=? x) eqn:?, (x <=? 90) eqn:?, (65 <=? y) eqn:?, (y <=? 90) eqn:?; cbn; lia.
Qed.

Notation is_inner := (fun c => is_wsp c || (c =? 13)) (only parsing).
Lemma day_names_caps : forall n a, In (n, a) rfc_day_names -> exists x t, n = x :: t /\ 65 <= x <= 90.
Proof.
  intros n a Hn. unfold rfc_day_names in Hn. cbn [In] in Hn.
  repeat (destruct Hn as [Hn|Hn]; [injection Hn as <- <-; eexists _, _; split; [reflexivity|split; discriminate]|]). destruct Hn.
Qed.
Lemma month_names_caps : forall n a, In (n, a) rfc_month_names -> exists x t, n = x :: t /\ 65 <= x <= 90.
Proof.
  intros n a Hn. unfold rfc_month_names in Hn. cbn [In] in Hn.
  repeat (destruct Hn as [Hn|Hn]; [injection Hn as <- <-; eexists _, _; split; [reflexivity|split; discriminate]|]). destruct Hn.
Qed.
Lemma letter_inner : forall x t, 65 <= x <= 90 \/ 97 <= x <= 122 -> ends is_inner (x :: t).
Proof. intros x t H. cbn [ends]. destruct (is_wsp x) eqn:X; [apply wsp_spec in X; chars_lia|]. lia. Qed.
Lemma digit_inner : forall c, rfc_DIGIT c -> is_wsp c || (c =? 13) = false.
Proof. intros c H. destruct (is_wsp c) eqn:X; [apply wsp_spec in X; chars_lia|]. unfold rfc_DIGIT in H. lia. Qed.
Lemma digits_inner : forall lo hi c v r, (0 < lo)%nat -> rfc_digits lo hi c v -> ends is_inner (c ++ r).
Proof. intros lo hi c v r L (H1 & H2 & _). eapply chars1_ends; [exact digit_inner|]. split; auto. intros ->. cbn in H1. lia. Qed.
Lemma day_name_inner : forall c v r, rfc_name rfc_day_names c v -> ends is_inner (c ++ r).
Proof. intros c v r H. destruct (name_head _ _ _ _ day_names_caps H) as (x & t & -> & Hx). now apply letter_inner. Qed.
Lemma month_name_inner : forall c v r, rfc_name rfc_month_names c v -> ends is_inner (c ++ r).
Proof. intros c v r H. destruct (name_head _ _ _ _ month_names_caps H) as (x & t & -> & Hx). now apply letter_inner. Qed.
Lemma fws_inner : forall w v r, rfc_FWS w v -> ends is_inner r -> fws (w ++ r) = Ok (r, v).
Proof. intros w v r H Hr. apply ends_inner in Hr as (H1 & H2 & H3). apply fws_forward; auto. Qed.

Lemma day_of_week_forward : forall w v c d r, rfc_oFWS w v -> rfc_name rfc_day_names c d -> day_of_week (w ++ c ++ bs "," ++ r) = Ok (r, d).
Proof.
  intros w v c d r Hw Hc. unfold day_of_week. rewrite (ofws_inner w v); [|auto|eapply day_name_inner; eauto]. cbn [bind].
  rewrite (day_name_forward c d) by auto. cbn [bind]. rewrite tag_app. reflexivity.
Qed.
Lemma day_name_digit : forall x r, rfc_DIGIT x -> exists e, day_name (x :: r) = Err e.
Proof.
  intros x r H. unfold day_name. match goal with |- context [if ?b then _ else _] => destruct b end; [|eexists; reflexivity].
  match goal with |- context [map_get ?t ?k] => destruct (map_get t k) as [d|] eqn:M end; [|eexists; reflexivity].
  exfalso. apply map_get_in in M. cbn [firstn] in M. unfold lowercase in M. cbn [map] in M.
  assert (T : to_lower x = x) by (unfold to_lower, is_upper, rfc_DIGIT in *; destruct (65 <=? x) eqn:?, (x <=? 90) eqn:?; cbn; lia). rewrite T in M.
  unfold day_table in M. cbn [In] in M. unfold rfc_DIGIT in H.
  repeat (destruct M as [M|M]; [injection M as M; subst x; lia|]). destruct M.
Qed.
Lemma day_of_week_none : forall w v c lo hi d r, (0 < lo)%nat -> rfc_oFWS w v -> rfc_digits lo hi c d -> exists e, day_of_week (w ++ c ++ r) = Err e.
Proof.
  intros w v c lo hi d r L Hw Hc. unfold day_of_week. rewrite (ofws_inner w v); [|auto|eapply digits_inner; eauto]. cbn [bind].
  destruct Hc as (Hl & Hc & _). destruct c as [|x c]; [cbn in Hl; lia|]. inversion Hc; subst. cbn [app]. destruct (day_name_digit x (c ++ r)) as [e He]; auto. use1 day_name He. cbn. eauto.
Qed.
Lemma FWS_digit : forall w v r, rfc_FWS w v -> ends is_digit (w ++ r).
Proof. intros w v r H. eapply FWS_ends; eauto; reflexivity. Qed.
Lemma day_forward : forall E w0 v0 c d w1 v1 r, rfc_oFWS w0 v0 -> rfc_digits 1 2 c d -> rfc_FWS w1 v1 -> d <= 31 -> ends is_inner r ->
  day E (w0 ++ c ++ w1 ++ r) = Ok (r, d).
Proof.
  intros E w0 v0 c d w1 v1 r H0 Hc H1 Hd Hr. unfold day. rewrite (ofws_inner w0 v0); [|auto|eapply digits_inner; [|exact Hc]; lia]. cbn [bind].
  destruct Hc as (L & Hc & Hv). destruct c as [|x [|y [|z c]]]; cbn [length] in L; try lia; inversion Hc as [|? ? Hx Hs]; subst.
  - cbn [app]. rewrite digit_forward by auto. cbn [bind]. destruct (digit_none (w1 ++ r)) as [e ->]; [eapply FWS_digit; eauto|]. cbn [attempt bind].
    cbn [number length] in *. change (10 ^ N.of_nat 0) with 1 in *. replace ((x - 48) * 1 + 0) with (x - 48) in * by lia.
    destruct (N.ltb_spec 31 (x - 48)); [lia|]. rewrite (fws_inner w1 v1) by auto. reflexivity.
  - inversion Hs as [|? ? Hy _]; subst. cbn [app]. rewrite digit_forward by auto. cbn [bind]. rewrite digit_forward by auto. cbn [attempt bind]. unfold rfc_DIGIT in Hx, Hy.
    rewrite u8_mul_ok by lia. cbn [bind]. rewrite u8_add_ok by lia. cbn [bind].
    cbn [number length] in *. change (10 ^ N.of_nat 1) with 10 in *. change (10 ^ N.of_nat 0) with 1 in *.
    replace ((x - 48) * 10 + ((y - 48) * 1 + 0)) with ((x - 48) * 10 + (y - 48)) in * by lia.
    destruct (N.ltb_spec 31 ((x - 48) * 10 + (y - 48))); [lia|]. rewrite (fws_inner w1 v1) by auto. reflexivity.
Qed.
Lemma year_forward : forall w2 v2 c w3 v3 r, rfc_FWS w2 v2 -> (4 <= length c)%nat -> chars rfc_DIGIT c -> 1990 <= number c < 2 ^ 64 -> rfc_FWS w3 v3 -> ends is_inner r ->
  year (w2 ++ c ++ w3 ++ r) = Ok (r, number c).
Proof.
  intros w2 v2 c w3 v3 r H2 L Hc Hn H3 Hr. assert (C1 : chars1 rfc_DIGIT c) by (split; auto; intros ->; cbn in L; lia). unfold year.
  rewrite (fws_inner w2 v2); [|auto|eapply chars1_ends; [exact digit_inner|exact C1]]. cbn [bind].
  rewrite (take_while1_app is_digit rfc_DIGIT c (w3 ++ r) digit_spec digit_ascii C1) by (eapply FWS_digit; eauto). cbn [map_err bind].
  destruct (Nat.ltb_spec (length c) 4); [lia|]. unfold parse_below. rewrite decimal_number. change (2 ^ 64) with usize_bound in Hn.
  destruct (N.ltb_spec (number c) usize_bound); [|lia]. cbn [ok_or bind]. destruct (N.ltb_spec (number c) 1990); [lia|].
  rewrite (fws_inner w3 v3) by auto. reflexivity.
Qed.
Lemma date_forward : forall E c d r, rfc_date c d -> d_day d <= 31 -> 1990 <= d_year d < 2 ^ 64 -> ends is_inner r -> date E (c ++ r) = Ok (r, d).
Proof.
  intros E c d r [w0 v0 c1 dd w1 v1 c2 m w2 v2 c3 y w3 v3 H0 H1 H2 H3 H4 H5 H6 -> H8] R1 R2 Hr. cbn [d_day d_year] in *. unfold date. rewrite <- !app_assoc.
  rewrite (day_forward E w0 v0 c1 dd w1 v1); [|auto|auto|auto|auto|eapply month_name_inner; eauto]. cbn [bind].
  rewrite (month_forward c2 m) by auto. cbn [bind]. rewrite (year_forward w2 v2 c3 w3 v3) by auto. reflexivity.
Qed.
Lemma time_of_day_forward : forall E c t r, rfc_time_of_day c t -> t_hour t <= 23 -> t_minute t <= 59 -> t_second t <= 60 -> ends (fun c => 58 =? c) r ->
  time_of_day E (c ++ r) = Ok (r, t).
Proof.
  intros E c t r [c1 h c2 m H1 H2|c1 h c2 m c3 s H1 H2 H3] R1 R2 R3 Hr; cbn [t_hour t_minute t_second] in *; unfold time_of_day; rewrite <- !app_assoc;
    rewrite (two_digits_forward E c1 h) by auto; cbn [bind]; (destruct (N.ltb_spec 23 h); [lia|]); rewrite tag_app; cbn [bind]; rewrite (two_digits_forward E c2 m) by auto; cbn [bind];
    (destruct (N.ltb_spec 59 m); [lia|]).
  - destruct (starts_with r (bs ":")) eqn:X; [|reflexivity]. apply starts_with_spec in X as [x ->]. discriminate Hr.
  - rewrite starts_with_app. change 1%nat with (length (bs ":")). rewrite index_from_app. cbn [bind]. rewrite (two_digits_forward E c3 s) by auto. cbn [attempt].
    destruct (N.ltb_spec 60 s); [lia|]. reflexivity.
Qed.
Lemma zone_forward : forall E c z r, rfc_zone c z -> z_minute_offset z <= 59 -> zone E (c ++ r) = Ok (r, z).
Proof.
  intros E c z r [w v s c1 h c2 m Hw H1 H2] R. cbn [z_minute_offset] in R. unfold zone. rewrite <- !app_assoc.
  rewrite (fws_inner w v); [|auto|destruct s; reflexivity]. cbn [bind].
  assert (G : forall x, bs (if s then "+" else "-") = [x] -> (let* i0 := index_from ([x] ++ c1 ++ c2 ++ r) 1 in
      let* (i1, h) := two_digits E i0 in
      let* (i2, m) := two_digits E i1 in
      if 59 <? m then Err (Unknown "zone minute_offset out of range")
      else Ok (i2, {| z_sign := s; z_hour_offset := h; z_minute_offset := m |})) = Ok (r, {| z_sign := s; z_hour_offset := h; z_minute_offset := m |})).
  { intros x _. change 1%nat with (length [x]). rewrite index_from_app. cbn [bind]. rewrite (two_digits_forward E c1 h) by auto. cbn [bind].
    rewrite (two_digits_forward E c2 m) by auto. cbn [bind]. destruct (N.ltb_spec 59 m); [lia|]. reflexivity. }
  destruct s.
  - exact (G 43 eq_refl).
  - exact (G 45 eq_refl).
Qed.
Lemma zone_head : forall c z, rfc_zone c z -> forall (f : byte -> bool) r, f 32 = false -> f 9 = false -> f 13 = false -> ends f (c ++ r).
Proof. intros c z [w v s c1 h c2 m Hw H1 H2] f r F1 F2 F3. rewrite <- !app_assoc. eapply FWS_ends; eauto. Qed.
Lemma digits_last : forall lo hi c v, (0 < lo)%nat -> rfc_digits lo hi c v -> exists y d, c = y ++ [d] /\ visible d.
Proof.
  intros lo hi c v L (Hl & Hc & _). assert (N : c <> []) by (intros ->; cbn in Hl; lia). destruct (exists_last N) as (y & d & ->). exists y, d. split; auto.
  apply Forall_app in Hc as [_ Hc]. inversion Hc; subst. unfold rfc_DIGIT, visible in *. lia.
Qed.
(* where the white space at the end of a date starts *)
Lemma date_time_last : forall c d, rfc_date_time c d -> exists x y t, c = x ++ [y] ++ t /\ visible y /\ rfc_oCFWS t.
Proof.
  intros c d [c0 n c1 dd c2 t c3 z c4 H0 H1 H2 H3 H4]. destruct H3 as [w v s z1 h z2 m Hw Hz1 Hz2]. destruct (digits_last 2 2 z2 m ltac:(lia) Hz2) as (y & x & -> & Hx).
  exists (c0 ++ c1 ++ c2 ++ w ++ bs (if s then "+" else "-") ++ z1 ++ y), x, c4. split; [now rewrite <- !app_assoc|auto].
Qed.
Lemma date_time_forward : forall E c d i, rfc_date_value c d -> follows c i -> date_time E (c ++ i) = Ok (i, d).
Proof.
  intros E c d i [H R] Hf. assert (F : exists x y t, c = x ++ [y] ++ t /\ visible y /\ rfc_oCFWS t) by (eapply date_time_last; eauto).
  destruct H as [c0 n c1 dd c2 t c3 z c4 H0 H1 H2 H3 H4]. destruct R as (R1 & R2 & R3 & R4 & R5 & R6 & R7). cbn [dt_date dt_time tz_time tz_zone] in *.
  assert (F4 : follows c4 i).
  { destruct H3 as [w v s z1 h z2 m Hw Hz1 Hz2]. destruct (digits_last 2 2 z2 m ltac:(lia) Hz2) as (y & x & -> & Hx).
    replace (c0 ++ c1 ++ c2 ++ (w ++ bs (if s then "+" else "-") ++ z1 ++ y ++ [x]) ++ c4) with ((c0 ++ c1 ++ c2 ++ w ++ bs (if s then "+" else "-") ++ z1 ++ y) ++ [x] ++ c4) in Hf by (now rewrite <- !app_assoc).
    now apply follows_after1 in Hf. }
  unfold date_time. rewrite <- !app_assoc.
  assert (W : exists j, optional day_of_week (c0 ++ c1 ++ c2 ++ c3 ++ c4 ++ i) = Ok (j, n) /\ j = c1 ++ c2 ++ c3 ++ c4 ++ i).
  { eexists. split; [|reflexivity]. unfold optional. destruct H0 as [|w v c0 d0 Hw Hc0].
    - cbn [app]. destruct H1 as [w0 v0 c1 dd1 w1 v1 cm m w2 v2 cy y w3 v3 K0 K1 K2 K3 K4 K5 K6 K7 K8]. rewrite <- !app_assoc.
      destruct (day_of_week_none w0 v0 c1 1 2 dd1 (w1 ++ cm ++ w2 ++ cy ++ w3 ++ c2 ++ c3 ++ c4 ++ i)) as [e He]; [lia|auto|auto|]. rewrite He. reflexivity.
    - rewrite <- !app_assoc. rewrite (day_of_week_forward w v c0 d0) by auto. reflexivity. }
  destruct W as (j & W & ->). rewrite W. cbn [bind]. rewrite (date_forward E c1 dd); [|auto|auto|auto|].
  2:{ destruct H2 as [t1 h t2 m T1 T2|t1 h t2 m t3 s T1 T2 T3]; rewrite <- !app_assoc; eapply digits_inner; [|exact T1| |exact T1]; lia. }
  cbn [bind]. unfold time. rewrite (time_of_day_forward E c2 t); [|auto|auto|auto|auto|eapply zone_head; eauto]. cbn [bind].
  rewrite (zone_forward E c3 z) by auto. cbn [bind]. destruct (ocfws_forward c4 i H4 F4) as [o ->]. reflexivity.
Qed.

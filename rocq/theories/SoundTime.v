(* Soundness, part 2: dates and times. *)
From Coq Require Import ZArith Lia ZifyBool ZifyNat ZifyN.
From Verif Require Import Base Utf8 CharSets Combinators Whitespace Time Rfc5322 Post CodecArith Base64Proofs QPProofs PercentProofs SoundBase.
Local Open Scope N_scope.

Lemma number_snoc : forall l c, number (l ++ [c]) = 10 * number l + (c - 48).
Proof.
  induction l as [|x l IH]; intros c; cbn [app number].
  - cbn [length]. change (10 ^ N.of_nat 0) with 1. lia.
  - rewrite IH. rewrite app_length. cbn [length]. rewrite Nat2N.inj_add. change (N.of_nat 1) with 1.
    rewrite N.pow_add_r. change (10 ^ 1) with 10. lia.
Qed.
Lemma decimal_acc_number : forall l acc, decimal_acc acc l = acc * 10 ^ N.of_nat (length l) + number l.
Proof.
  induction l as [|x l IH]; intros acc; cbn [decimal_acc number length].
  - change (10 ^ N.of_nat 0) with 1. lia.
  - rewrite IH. rewrite Nat2N.inj_succ, N.pow_succ_r'. lia.
Qed.
Lemma decimal_number : forall l, decimal l = number l.
Proof. intros. unfold decimal. rewrite decimal_acc_number. lia. Qed.

Lemma sound_two_digits : forall E K i, post K (two_digits E i) i (fun c v => rfc_digits 2 2 c v /\ v <= 99).
Proof.
  intros. unfold two_digits. step (post_digit K). step (post_digit K).
  destruct H as (x & -> & Hx & ->), H0 as (y & -> & Hy & ->). apply digit_spec in Hx, Hy. unfold rfc_DIGIT in *.
  rewrite u8_mul_ok by lia. cbn [bind]. rewrite u8_add_ok by lia. cbn [bind]. apply post_ok. cbn [app].
  split; [|lia]. split; [cbn; lia|]. split; [repeat constructor; unfold rfc_DIGIT; lia|].
  cbn [number length]. change (10 ^ N.of_nat 1) with 10. change (10 ^ N.of_nat 0) with 1. lia.
Qed.

Lemma to_lower_fold : forall c, to_lower c = fold_case c.
Proof. intros. unfold to_lower, fold_case, is_upper. reflexivity. Qed.
Lemma lowercase_fold : forall l, lowercase l = map fold_case l.
Proof. intros. unfold lowercase. apply map_ext. apply to_lower_fold. Qed.

Lemma map_get_in : forall A (m : list (bytes * A)) k v, map_get m k = Some v -> In (k, v) m.
Proof.
  induction m as [|[k' v'] m IH]; cbn; [discriminate|]. intros k v. destruct (bytes_eqb k k') eqn:E.
  - apply bytes_eqb_eq in E. intros H. inversion H; subst. now left.
  - intros H. right. auto.
Qed.

(* a three-letter name *)
Lemma sound_name3 : forall A K (table rfc : list (bytes * A)) e1 e2 i,
  (forall k v, In (k, v) table -> exists n, In (n, v) rfc /\ map fold_case n = k) ->
  post K (if (3 <=? length i)%nat then
     match map_get table (lowercase (firstn 3 i)) with Some d => Ok (skipn 3 i, d) | None => Err e1 end
   else Err e2) i (fun c v => length c = 3%nat /\ rfc_name rfc c v).
Proof.
  intros A K table rfc e1 e2 i H. destruct (Nat.leb_spec 3 (length i)); [|exact I].
  destruct (map_get table (lowercase (firstn 3 i))) as [d|] eqn:Hm; [|exact I].
  apply map_get_in in Hm. apply H in Hm as (n & Hn & Hf). exists (firstn 3 i). split; [symmetry; apply firstn_skipn|].
  split; [rewrite firstn_length; lia|]. apply (name_intro _ n); [exact Hn|]. unfold same_nocase. now rewrite <- lowercase_fold.
Qed.
Lemma day_table_ok : forall k v, In (k, v) day_table -> exists n, In (n, v) rfc_day_names /\ map fold_case n = k.
Proof.
  intros k v H. unfold day_table in H. cbn [In] in H. unfold rfc_day_names. cbn [In].
  repeat (destruct H as [H|H]; [injection H as <- <-; eexists; split; [eauto 10|reflexivity]|]). destruct H.
Qed.
Lemma month_table_ok : forall k v, In (k, v) month_table -> exists n, In (n, v) rfc_month_names /\ map fold_case n = k.
Proof.
  intros k v H. unfold month_table in H. cbn [In] in H. unfold rfc_month_names. cbn [In].
  repeat (destruct H as [H|H]; [injection H as <- <-; eexists; split; [eauto 15|reflexivity]|]). destruct H.
Qed.

Lemma sound_day_name : forall K i, post K (day_name i) i (fun c v => length c = 3%nat /\ rfc_name rfc_day_names c v).
Proof. intros. apply sound_name3. apply day_table_ok. Qed.
Lemma sound_month : forall K i, post K (month i) i (fun c v => length c = 3%nat /\ rfc_name rfc_month_names c v).
Proof. intros. apply sound_name3. apply month_table_ok. Qed.

Lemma sound_day_of_week : forall K i, post K (optional day_of_week i) i rfc_day_of_week.
Proof.
  intros. eapply post_weaken.
  - apply post_optional with (P := fun c d => rfc_day_of_week c (Some d)). unfold day_of_week.
    step (sound_ofws K). step (sound_day_name K). eapply post_bind; [apply post_tag|]. intros c' r' [] _ ->. cbn beta iota.
    apply post_ok. rewrite app_nil_r. econstructor; eauto. tauto.
  - intros c [d|]; auto. intros ->. constructor.
Qed.

Lemma sound_year : forall K i, post K (year i) i (fun c y => 1990 <= y < 2 ^ 64 /\
  exists w1 v1 d w2 v2, c = w1 ++ d ++ w2 /\ rfc_FWS w1 v1 /\ (4 <= length d)%nat /\ chars rfc_DIGIT d /\ y = number d /\ rfc_FWS w2 v2).
Proof.
  intros. unfold year. step (sound_fws K).
  eapply post_bind; [apply post_map_err, (sound_take_while1 K is_digit rfc_DIGIT _ digit_spec digit_ascii)|].
  intros d r' a' _ [-> [_ Hd]]. cbn beta iota. destruct (Nat.ltb_spec (length d) 4); [exact I|].
  unfold parse_below. rewrite decimal_number. destruct (N.ltb_spec (number d) usize_bound); [|exact I]. cbn [ok_or bind].
  destruct (N.ltb_spec (number d) 1990); [exact I|]. step (sound_fws K). apply post_ok. rewrite app_nil_r.
  unfold usize_bound in *. split; [lia|]. exists c, a, d, c0, a0. auto 10.
Qed.

Lemma sound_day : forall E K i, post K (day E i) i (fun c v => v <= 31 /\
  exists w0 v0 d w1 v1, c = w0 ++ d ++ w1 /\ rfc_oFWS w0 v0 /\ rfc_digits 1 2 d v /\ rfc_FWS w1 v1).
Proof.
  intros. unfold day. step (sound_ofws K). step (post_digit K). destruct H0 as (x & -> & Hx & ->).
  apply digit_spec in Hx. unfold rfc_DIGIT in Hx.
  eapply post_bind with (P := fun t v => rfc_digits 1 2 ([x] ++ t) v).
  { eapply post_attempt; [apply post_digit| |].
    - intros t r' d2 _ (y & -> & Hy & ->). apply digit_spec in Hy. unfold rfc_DIGIT in Hy.
      rewrite u8_mul_ok by lia. cbn [bind]. rewrite u8_add_ok by lia. cbn [bind]. apply post_ok. rewrite app_nil_r.
      split; [cbn; lia|]. split; [repeat constructor; unfold rfc_DIGIT; lia|].
      cbn [number length app]. change (10 ^ N.of_nat 1) with 10. change (10 ^ N.of_nat 0) with 1. lia.
    - apply post_ok. rewrite app_nil_r. split; [cbn; lia|]. split; [repeat constructor; unfold rfc_DIGIT; lia|].
      cbn [number length]. change (10 ^ N.of_nat 0) with 1. lia. }
  intros t r' v _ Hv. cbn beta iota. destruct (N.ltb_spec 31 v); [exact I|]. step (sound_fws K). apply post_ok.
  rewrite app_nil_r. split; [lia|]. rewrite (app_assoc [x]). exists c, (match a with Some v => v | None => [] end), ([x] ++ t), c0, a0. auto.
Qed.

Lemma sound_time_of_day : forall E K i, post K (time_of_day E i) i (fun c t => rfc_time_of_day c t /\
  t_hour t <= 23 /\ t_minute t <= 59 /\ t_second t <= 60).
Proof.
  intros. unfold time_of_day. step (sound_two_digits E K). destruct H as [H _]. destruct (N.ltb_spec 23 a); [exact I|].
  eapply post_bind; [apply post_tag|]. intros c1 r1 [] _ ->. cbn beta iota. step (sound_two_digits E K). destruct H1 as [H1 _].
  destruct (N.ltb_spec 59 a0); [exact I|].
  assert (D : post K (Ok (r0, {| t_hour := a; t_minute := a0; t_second := 0 |})) r0
     (fun c' b => rfc_time_of_day (c ++ bs ":" ++ c0 ++ c') b /\ t_hour b <= 23 /\ t_minute b <= 59 /\ t_second b <= 60)).
  { apply post_ok. rewrite app_nil_r. cbn [t_hour t_minute t_second]. split; [now constructor|lia]. }
  destruct (starts_with r0 (bs ":")) eqn:Hs; [|exact D].
  apply starts_with_spec in Hs as [r2 ->]. change 1%nat with (length (bs ":")). rewrite index_from_app. cbn [bind].
  pose proof (sound_two_digits E K r2) as T. destruct (two_digits E r2) as [[r3 s]|e|k]; cbn [attempt]; [|exact D|exact T].
  destruct T as (c3 & -> & T & _). destruct (N.ltb_spec 60 s); [exact I|].
  exists (bs ":" ++ c3). split; [now rewrite <- app_assoc|]. cbn [t_hour t_minute t_second]. split; [now constructor|lia].
Qed.

Lemma sound_zone : forall E K i, post K (zone E i) i (fun c z => rfc_zone c z /\ z_hour_offset z <= 99 /\ z_minute_offset z <= 59).
Proof.
  intros. unfold zone. step (sound_fws K). destruct r as [|x r]; [exact I|].
  assert (G : forall s : bool, bs (if s then "+" else "-") = [x] ->
    post K (let* i0 := index_from (x :: r) 1 in
      let* (i1, h) := two_digits E i0 in
      let* (i2, m) := two_digits E i1 in
      if 59 <? m then Err (Unknown "zone minute_offset out of range")
      else Ok (i2, {| z_sign := s; z_hour_offset := h; z_minute_offset := m |})) (x :: r)
    (fun c' b => rfc_zone (c ++ c') b /\ z_hour_offset b <= 99 /\ z_minute_offset b <= 59)).
  { intros s Hs. change (index_from (x :: r) 1) with (index_from ([x] ++ r) (length [x])). rewrite index_from_app. cbn [bind].
    pose proof (sound_two_digits E K r) as T1. destruct (two_digits E r) as [[r1 h]|e|k]; cbn [bind]; [|exact I|exact T1].
    destruct T1 as (c1 & -> & T1 & L1).
    pose proof (sound_two_digits E K r1) as T2. destruct (two_digits E r1) as [[r2 m]|e|k]; cbn [bind]; [|exact I|exact T2].
    destruct T2 as (c2 & -> & T2 & L2). destruct (N.ltb_spec 59 m); [exact I|].
    exists ([x] ++ c1 ++ c2). split; [now rewrite <- !app_assoc|]. cbn [z_hour_offset z_minute_offset]. rewrite <- Hs. split; [|lia].
    econstructor; eauto. }
  destruct (N.eqb_spec x 43) as [->|]; [exact (G true eq_refl)|].
  destruct (N.eqb_spec x 45) as [->|]; [exact (G false eq_refl)|exact I].
Qed.

Lemma sound_date_time : forall E K i, post K (date_time E i) i (fun c d => rfc_date_time c d /\ date_in_range d).
Proof.
  intros. unfold date_time. step (sound_day_of_week K).
  assert (D : forall j, post K (date E j) j (fun c d => rfc_date c d /\ d_day d <= 31 /\ 1990 <= d_year d < 2 ^ 64)).
  { clear. intros j. unfold date. step (sound_day E K). step (sound_month K). step (sound_year K). apply post_ok. rewrite app_nil_r.
    destruct H as (L1 & w0 & v0 & d & w1 & v1 & -> & Hw0 & Hd & Hw1). destruct H0 as [_ H0].
    destruct H1 as (L2 & w2 & v2 & y & w3 & v3 & -> & Hw2 & Hy1 & Hy2 & Hy3 & Hw3). cbn [d_day d_year].
    split; [|lia]. rewrite <- !app_assoc. econstructor; eauto. }
  step D. destruct H0 as (H0 & R1 & R2).
  assert (T : forall j, post K (time E j) j (fun c t => exists c1 c2, c = c1 ++ c2 /\ rfc_time_of_day c1 (tz_time t) /\ rfc_zone c2 (tz_zone t)
     /\ t_hour (tz_time t) <= 23 /\ t_minute (tz_time t) <= 59 /\ t_second (tz_time t) <= 60
     /\ z_hour_offset (tz_zone t) <= 99 /\ z_minute_offset (tz_zone t) <= 59)).
  { clear. intros j. unfold time. step (sound_time_of_day E K). step (sound_zone E K). apply post_ok. rewrite app_nil_r.
    exists c, c0. cbn [tz_time tz_zone]. tauto. }
  step T. destruct H1 as (c1' & c2' & -> & T1 & T2 & R3). step (sound_ocfws K). apply post_ok. rewrite app_nil_r.
  split.
  - destruct a1 as [t z]. cbn [tz_time tz_zone] in *. rewrite <- !app_assoc. constructor; auto.
  - unfold date_in_range. cbn [dt_date dt_time]. tauto.
Qed.

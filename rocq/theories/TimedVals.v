(* The work of the other values: texts, key words, dates, paths, received tokens. *)
From Coq Require Import Lia ZifyBool ZifyNat ZifyN.
From Verif Require Import Base Utf8 CharSets Combinators Whitespace QuotedString Common Time Address MimeFields Fields Message Email Rfc5322 TagNoCase Post SoundBase SoundTime Timed TimedFacts TimedWords TimedAddr TimedBox.
Local Open Scope nat_scope.

(* ---- texts ---- *)
Lemma text_turns : turns 20 0 (fun _ => False) t_unstructured_step (fun w => 2 * length w).
Proof.
  intros i. unfold t_unstructured_step, t_collect_pair. eapply spec_bind with (B := fun _ => False); [|intros n []|].
  { pose proof (s_some_fws i) as H. instantiate (1 := fun r a n => ahead i r /\ (n + 2 * reach r <= 2 * reach i + 5 \/ r = i /\ n <= reach i + 5 /\ begins is_wsp i) /\ length a + length r <= length i /\ n <= 2 * reach i + 5).
    destruct (t_fws i) as [[[r a]|e|c] n]; cbn in *; exact H. }
  cbn beta. intros r a n (H1 & H2 & H3 & H4). eapply spec_bind; [apply s_take_while1; exact vchar_plain|auto|]. cbn beta. intros r' s m (K1 & K2 & K3 & K4 & -> & K6 & K7). apply spec_concat, spec_ok. rewrite app_length.
  split; [ah|]. split; [ah|]. split; [ah|]. left. destruct H2 as [H2|(-> & _ & H2)]; [ah|]. exfalso. apply not_stops in K6. eapply begins_not; [exact H2|]. eapply begins_stops; [exact K6|]. unfold is_vchar, is_wsp. lia.
Qed.
Lemma upto_text_step : forall i, upto 20 20 i (t_unstructured_step i).
Proof.
  intros i. unfold t_unstructured_step, t_collect_pair. eapply spec_bind with (B := fun _ => False); [|intros n []|].
  { pose proof (s_some_fws i) as H. instantiate (1 := fun r a n => ahead i r /\ (n + 2 * reach r <= 2 * reach i + 5 \/ r = i /\ n <= reach i + 5 /\ begins is_wsp i) /\ length a + length r <= length i /\ n <= 2 * reach i + 5).
    destruct (t_fws i) as [[[r a]|e|c] n]; cbn in *; exact H. }
  cbn beta. intros r a n (H1 & H2 & H3 & H4). eapply spec_bind; [apply s_take_while1; exact vchar_plain|cbn beta; intros m [-> _]; lia|]. cbn beta. intros r' s m (K1 & K2 & K3 & K4 & -> & K6 & K7). apply spec_concat, spec_ok. split; ah.
Qed.
Lemma blank_turns : turns 20 0 (fun _ => False) (t_take_while1 is_wsp) (fun _ => 0).
Proof.
  intros i. eapply spec_weak; [apply s_take_while1; exact wsp_plain| |auto]. cbn beta. intros r a n (H1 & H2 & H3 & H4 & -> & _). split; [exact H1|]. split; [ah|]. split; [ah|left; ah].
Qed.
Lemma upto_step : forall A K k i r n (a : A), ahead i r -> n <= K * reach i + k -> upto K k i (t_step n (Ok (r, a))).
Proof. intros. split; assumption. Qed.
Lemma upto_text : forall i, upto 200 200 i (t_unstructured i).
Proof.
  intros i. unfold t_unstructured, t_collect_many. eapply upto_weak; [eapply upto_bind with (K1 := 100) (k1 := 100)| |].
  - eapply spec_bind; [apply (s_many _ _ _ _ _ _ text_turns)|intros n []|]. cbn beta. intros r l n (H1 & H2 & H3 & H4 & H5). pose proof (upto_text_step r) as U. apply (spec_erred _ _ _ _ U) in H4. cbn beta in H4.
    destruct H5 as [H5|[[] _]]. rewrite sum_concat in H2. split; [exact H1|]. ah.
  - intros r a. cbn beta iota. eapply upto_bind with (K1 := 50) (k1 := 50); [|intros; apply upto_ok].
    unfold t_ignore_many. eapply upto_weak; [eapply upto_bind; [eapply upto_many; [exact blank_turns|intros j; apply upto_take1; exact wsp_plain]|intros; apply upto_ok]|lia|lia].
  - lia.
  - lia.
Qed.

(* ---- key words ---- *)
Lemma keyword_turns : turns 700 400 (fun _ => True) (t_prefixed t_phrase (bs ",")) (fun _ => 0).
Proof.
  intros i. apply spec_prefixed; [|auto]. intros j ->. pose proof (ahead_cons 44%N j ltac:(lia)) as L1. pose proof (reach_cons 44%N j ltac:(lia)) as L2. eapply spec_weak; [apply s_phrase| |auto]. cbn beta. intros r l m (H1 & H2 & H3 & H4 & H5 & H6).
  cbn [length] in *. split; [ah|]. split; [ah|]. split; [ah|]. destruct (stops_or is_comma r) as [C|C].
  - right. split; [exact I|]. split; [destruct (prefixed_none _ t_phrase r C) as [e X]; rewrite X; exact I|ah].
  - left. pose proof (begins_hard _ _ C hard_comma) as Hh. pose proof (hard_word r Hh) as Y. apply (spec_erred _ _ _ _ Y) in H4. cbn beta in H4. apply hard_quiet in Hh as (_ & _ & _ & F). apply post_free in H5 as [_ H5]; [|exact F]. lia.
Qed.
Lemma upto_keywords : forall i, upto 2000 2000 i (t_keywords_value i).
Proof.
  intros i. unfold t_keywords_value. eapply upto_weak; [eapply upto_bind with (K2 := 1301) (k2 := 1000); [apply upto_phrase|]| |].
  - intros r a. cbn beta iota. eapply spec_bind; [apply (s_many _ _ _ _ _ _ keyword_turns)|intros n []|]. cbn beta. intros r' l n (H1 & H2 & H3 & H4 & H5). pose proof (upto_prefixed _ _ _ _ r' upto_phrase) as U. apply (spec_erred _ _ _ _ U) in H4. cbn beta in H4.
    split; [exact H1|]. destruct H5 as [H5|[_ H5]]; ah.
  - lia.
  - lia.
Qed.

(* ---- dates ---- *)
Lemma upto_leaf : forall A n i (x : res (bytes * A)), Post.post (fun _ => True) x i (fun c _ => Forall (fun b => b <> 13%N) c) -> upto 0 n i (t_step n x).
Proof. intros A n i [[r a]|e|c] H; cbn in *; auto. destruct H as (c & -> & H). split; [now apply ahead_app|lia]. Qed.
Lemma post_leaf : forall A (x : res (bytes * A)) i (P : bytes -> A -> Prop), Post.post (fun _ => True) x i P -> (forall c a, P c a -> Forall (fun b => b <> 13%N) c) -> Post.post (fun _ => True) x i (fun c _ => Forall (fun b => b <> 13%N) c).
Proof. intros A [[r a]|e|c] i P H X; cbn in *; auto. destruct H as (c & -> & H). exists c. split; [reflexivity|eauto]. Qed.
Lemma nocase_no_cr : forall n c, same_nocase n c -> Forall (fun b => b <> 13%N) n -> Forall (fun b => b <> 13%N) c.
Proof.
  induction n as [|x n IH]; intros [|y c] H F; try discriminate; [constructor|]. unfold same_nocase in H. cbn [map] in H. injection H as H1 H2. inversion F as [|? ? F1 F2]. subst. constructor; [|apply IH; assumption].
  intros ->. unfold fold_case in H1. change ((65 <=? 13) && (13 <=? 90))%N with false in H1. cbv iota in H1. destruct ((65 <=? x) && (x <=? 90))%N eqn:X; lia.
Qed.
Lemma digits_no_cr : forall lo hi c v, rfc_digits lo hi c v -> Forall (fun b => b <> 13%N) c.
Proof. intros lo hi c v (_ & H & _). eapply Forall_impl; [|exact H]. cbn. unfold rfc_DIGIT. intros. lia. Qed.
Ltac no13 := repeat constructor; discriminate.
Lemma upto_day_name : forall i, upto 0 24 i (t_day_name i).
Proof.
  intros i. apply upto_leaf. eapply post_leaf; [apply sound_day_name|]. cbn beta. intros c a [_ [n c' d H1 H2]]. eapply nocase_no_cr; [exact H2|]. cbn in H1.
  repeat (destruct H1 as [H1|H1]; [injection H1 as <- _; no13|]). contradiction.
Qed.
Lemma upto_month : forall i, upto 0 39 i (t_month i).
Proof.
  intros i. apply upto_leaf. eapply post_leaf; [apply sound_month|]. cbn beta. intros c a [_ [n c' d H1 H2]]. eapply nocase_no_cr; [exact H2|]. cbn in H1.
  repeat (destruct H1 as [H1|H1]; [injection H1 as <- _; no13|]). contradiction.
Qed.
Lemma upto_digit : forall i, upto 0 1 i (t_digit i).
Proof. intros [|c i]; unfold t_digit, digit, t_step; [cbn; lia|]. destruct (is_digit c) eqn:D; cbn; [|lia]. split; [|lia]. apply ahead_cons. unfold is_digit in D. lia. Qed.
Lemma upto_two_digits : forall E i, upto 0 2 i (t_two_digits E i).
Proof. intros E i. apply upto_leaf. eapply post_leaf; [apply sound_two_digits|]. cbn beta. intros c a [H _]. eapply digits_no_cr; exact H. Qed.
Lemma upto_time_of_day : forall E i, upto 0 12 i (t_time_of_day E i).
Proof.
  intros E i. apply upto_leaf. eapply post_leaf; [apply sound_time_of_day|]. cbn beta. intros c a [H _]. destruct H as [? ? ? ? D1 D2|? ? ? ? ? ? D1 D2 D3]; repeat (apply Forall_app; split); try (eapply digits_no_cr; eassumption); no13.
Qed.
Ltac ups := eapply upto_weak; [|apply Nat.le_refl|apply Nat.le_refl].
Lemma upto_if : forall A (b : bool) K k i (x y : timed (bytes * A)), upto K k i x -> upto K k i y -> upto K k i (if b then x else y).
Proof. intros A [] *; auto. Qed.
Lemma upto_err_any : forall A K k i e, upto K k i (t_err e : timed (bytes * A)).
Proof. intros. cbn. lia. Qed.
Lemma upto_ok_any : forall A K k i (a : A), upto K k i (t_ok (i, a)).
Proof. intros. split; [apply ahead_refl|lia]. Qed.
(* a step without a rest *)
Lemma upto_stepped : forall A C K k i n (x : res A) (f : A -> timed (bytes * C)), (forall a, upto K k i (f a)) -> upto K (n + k) i (let+ a := t_step n x in f a).
Proof.
  intros A C K k i n [a|e|c] f H; cbn; [|lia|exact I]. specialize (H a). destruct (f a) as [[[r b]|e|c] m]; cbn in *; [destruct H; split; [assumption|lia]|lia|exact I].
Qed.
Lemma upto_day_of_week : forall i, upto 2 31 i (t_day_of_week i).
Proof.
  intros i. unfold t_day_of_week. change (bs ",") with [44%N]. eapply upto_weak; [eapply upto_bind; [apply upto_optional, upto_fws|]; intros; eapply upto_bind; [apply upto_day_name|]; intros; eapply upto_bind; [apply upto_char; lia|]; intros; apply upto_ok| |]; lia.
Qed.
Lemma upto_year : forall i, upto 5 20 i (t_year i).
Proof.
  intros i. unfold t_year. eapply upto_weak; [eapply upto_bind with (K2 := 3) (k2 := 6); [apply upto_fws|]|lia|lia]. intros r a. cbn beta iota.
  eapply spec_bind with (G := fun r' y n => ahead r r' /\ length y + reach r' = reach r /\ n = S (length y)) (B := fun n => n = 1).
  - pose proof (s_take_while1 is_digit r digit_plain) as H. destruct (t_take_while1 is_digit r) as [[[r' y]|e|c] n]; cbn in *; [|tauto|exact I]. destruct H as (H1 & _ & H2 & _ & H3 & _). split; [exact H1|]. split; [ah|exact H3].
  - intros n ->. lia.
  - intros r' y n (H1 & H2 & ->). destruct (length y <? 4); [apply spec_err; lia|]. destruct (ok_or _ _) as [v|e|c]; cbn [t_bind t_step]; [|cbn; lia|exact I].
    pose proof (upto_fws r') as F. destruct (v <? 1990)%N; [cbn; lia|]. destruct (t_fws r') as [[[r2 b]|e|c] m]; cbn in *; [|lia|exact I]. destruct F. split; [ah|lia].
Qed.
Lemma upto_day : forall E i, upto 4 20 i (t_day E i).
Proof.
  intros E i. unfold t_day. eapply upto_weak; [eapply upto_bind; [apply upto_optional, upto_fws|]; intros; eapply upto_bind; [apply upto_digit|]; intros; eapply upto_bind with (K1 := 0) (k1 := 1)| |].
  - eapply upto_weak; [eapply upto_attempt with (K2 := 0) (k2 := 0); [apply upto_digit| |apply upto_ok]|lia|lia]. intros r' d2. cbn beta iota. apply (upto_stepped _ _ 0 0 r' 0). intros t. apply (upto_stepped _ _ 0 0 r' 0). intros v. apply upto_ok.
  - intros r' d. cbn beta iota. apply upto_if; [apply upto_err_any|]. eapply upto_weak; [eapply upto_bind; [apply upto_fws|]; intros; apply upto_ok| |]; [apply Nat.le_refl|apply Nat.le_refl].
  - lia.
  - lia.
Qed.
Lemma upto_zone : forall E i, upto 2 20 i (t_zone E i).
Proof.
  intros E i. unfold t_zone. eapply upto_weak; [eapply upto_bind with (K2 := 0) (k2 := 6); [apply upto_fws|]|lia|lia]. intros r a. cbn beta iota.
  destruct r as [|c r]; [cbn; lia|]. destruct (c =? 43)%N eqn:P; [|destruct (c =? 45)%N eqn:M; [|cbn; lia]];
    (assert (L : ahead (c :: r) r) by (apply ahead_cons; lia); eapply spec_known; [reflexivity|]; cbn beta; eapply spec_known; [reflexivity|]; change (skipn 1 (c :: r)) with r;
     eapply spec_weak; [eapply (upto_bind _ _ 0 2 0 2 r); [apply upto_two_digits|]; intros r2 h; cbn beta iota; eapply (upto_bind _ _ 0 2 0 0); [apply upto_two_digits|]; intros r3 m; cbn beta iota; apply upto_if; [apply upto_err_any|apply upto_ok_any]| |]; cbn beta; [intros r' z n [Z1 Z2]; split; [ah|lia]|intros; lia]).
Qed.
Lemma upto_date_time : forall E i, upto 100 200 i (t_date_time E i).
Proof.
  intros E i. unfold t_date_time. eapply upto_weak; [eapply upto_bind; [apply upto_optional, upto_day_of_week|]; intros r0 a0; cbn beta iota; eapply upto_bind with (K1 := 9) (k1 := 79); [|intros r1 a1; cbn beta iota; eapply upto_bind with (K1 := 2) (k1 := 32); [|intros r2 a2; cbn beta iota; eapply upto_bind; [apply upto_optional, upto_cfws|intros; apply upto_ok]]]| |].
  - unfold t_date. eapply upto_weak; [eapply upto_bind; [apply upto_day|]; intros; eapply upto_bind; [apply upto_month|]; intros; eapply upto_bind; [apply upto_year|]; intros; apply upto_ok| |]; lia.
  - unfold t_time. eapply upto_weak; [eapply upto_bind; [apply upto_time_of_day|]; intros; eapply upto_bind; [apply upto_zone|]; intros; apply upto_ok| |]; lia.
  - lia.
  - lia.
Qed.

(* ---- paths ---- *)
Lemma upto_angle : forall E i, upto 450 380 i (t_angle_addr E i).
Proof. intros E i. eapply spec_weak; [apply s_angle| |auto]. cbn beta. intros r a n (H & _). apply post_upto in H. split; [apply H|lia]. Qed.
Lemma upto_addr_spec : forall E i, upto 400 330 i (t_addr_spec E i).
Proof. intros E i. eapply spec_weak; [apply s_addr_spec| |auto]. cbn beta. intros r a n (H & _). apply post_upto in H. split; [apply H|lia]. Qed.
Lemma upto_domain : forall E i, upto 200 161 i (t_domain E i).
Proof. intros E i. eapply spec_weak; [apply s_domain| |auto]. cbn beta. intros r a n (H & _). apply post_upto in H. split; [apply H|lia]. Qed.
Lemma upto_return_path : forall E i, upto 1000 1000 i (t_return_path_value E i).
Proof.
  intros E i. unfold t_return_path_value. eapply upto_weak; [eapply upto_match; [apply upto_pmap, upto_angle|eapply upto_match; [apply upto_pmap|apply upto_match_nil]]| |].
  - unfold t_empty_path. change (bs "<") with [60%N]. change (bs ">") with [62%N]. eapply upto_bind; [apply upto_optional, upto_cfws|]. intros. cbn beta iota. eapply upto_bind; [apply upto_char; lia|]. intros. cbn beta iota. eapply upto_bind; [apply upto_optional, upto_cfws|]. intros. cbn beta iota. eapply upto_bind; [apply upto_char; lia|]. intros. cbn beta iota. eapply upto_bind; [apply upto_optional, upto_cfws|]. intros. apply upto_ok.
  - lia.
  - lia.
Qed.

(* ---- received tokens ---- *)
Lemma domain_miss : forall E i j c, SK i j c -> stops is_atext j -> (forall t, j <> 91%N :: t) -> spec (fun _ _ _ => False) (fun n => n = 2 * c + 3) (t_domain E i).
Proof.
  intros E i j c S A N. unfold t_domain. cbn [t_match_parsers]. destruct (dot_atom_miss E i j c S A) as [e X]. eapply spec_missed; [exact X|]. pose proof (s_domain_literal i) as L.
  destruct (t_domain_literal i) as [[[r d]|e'|x] n] eqn:DL; [| |exact I]; cbn [spec] in L.
  - exfalso. unfold t_domain_literal in DL. pose proof (s_optional_cfws i) as O. destruct (t_optional t_cfws i) as [[[r0 o]|e0|x] n0]; cbn [spec] in O; [|contradiction|discriminate]. destruct O as [_ O]. unfold SK in S. rewrite S in O. injection O as -> ->. cbn [t_bind] in DL.
    change (bs "[") with [91%N] in DL. unfold t_tag at 1, t_step, tag in DL. destruct (starts_with r0 [91%N]) eqn:Q; [apply starts_char in Q as [t ->]; exact (N t eq_refl)|]. discriminate DL.
  - cbn. destruct L as [_ L]. rewrite (L j c S N). lia.
Qed.
Lemma addr_spec_mute : forall E i j c, SK i j c -> mute j -> exists e, t_addr_spec E i = (Err e, 2 * c + 3).
Proof.
  intros E i j c S [M1 M2]. unfold t_addr_spec, t_local_part. cbn [t_match_parsers]. destruct (dot_atom_miss E i j c S M1) as [e1 X1]. destruct (qs_miss i j c S M2) as [e2 X2]. rewrite X1. cbn [t_attempt]. rewrite X2. cbn. eexists. f_equal. lia.
Qed.
Lemma quote_char : forall i x t, begins is_quote i -> x <> 34%N -> i <> x :: t.
Proof. intros i x t (c & r & -> & H) N X. injection X as -> _. unfold is_quote in H. lia. Qed.
Lemma post_times : forall q K k i r n m c, post K k i r n -> m <= q * n + c -> post (q * K) (q * k + c) i r m.
Proof.
  intros q K k i r n m c [H1 H2] H. split; [exact H1|]. destruct H2 as [H2|[H2 H3]]; [left|right; split; [exact H2|]].
  - assert (q * (n + K * reach r) <= q * (K * reach i + k)) by (apply Nat.mul_le_mono_l; exact H2). lia.
  - assert (q * n <= q * (K * reach i + k)) by (apply Nat.mul_le_mono_l; exact H3). lia.
Qed.
Lemma s_received_token : forall E i, spec (fun r a n => post 600 1200 i r n /\ reach r < reach i) (fun _ => True) (t_received_token_parser E i).
Proof.
  intros E i. unfold t_received_token_parser. destruct (skip_or i) as [(j & c & S)|(x & n & S)].
  2:{ unfold t_word. cbn [t_match_parsers]. unfold t_atom at 1. rewrite S. exact I. }
  destruct (stops_or is_atext j) as [A|A].
  2:{ destruct (s_atom i j c S A) as (a & j1 & T & L1 & L2 & L3 & L4 & Hm). pose proof (s_dot_atom E i j c j1 a S T A L1 L3 L4) as Hd.
      destruct (t_dot_atom E i) as [[[r d]|e|x] n] eqn:D; cbn [spec] in Hd; [|contradiction|].
      - apply dot_atom_atom in D as D'. destruct D' as (D1 & D2 & D3 & D4). unfold t_word. cbn [t_match_parsers]. destruct (t_atom i) as [[[r' w]|e|x] m] eqn:W; cbn [spec] in D1; [|contradiction|exact I].
        destruct D1 as [D1 D5]. cbn [t_attempt t_ok fst snd]. unfold t_domain. cbn [t_match_parsers]. rewrite D. cbn [t_attempt t_ok fst snd].
        assert (P : post 600 1200 i r (m + 0 + (n + 0 + 0))).
        { eapply post_weak; [apply (post_times 2 50 50 i r n _ 12 D2)|lia|lia]. lia. }
        destruct (length w <? length d) eqn:Q; cbn [spec fst snd t_ok]; [split; assumption|]. destruct D5 as [[-> ->]|[_ D5]]; [split; assumption|]. apply Nat.ltb_ge in Q. exfalso. ah.
      - destruct (t_atom i) as [[[r' w]|e|y] m] eqn:W; cbn [spec] in Hm; [|contradiction|unfold t_word; cbn [t_match_parsers]; rewrite W; exact I]. unfold t_word. cbn [t_match_parsers]. rewrite W. cbn [t_attempt t_ok fst snd]. unfold t_domain. cbn [t_match_parsers]. rewrite D. exact I. }
  destruct (stops_or is_quote j) as [Q|Q].
  - pose proof (conj A Q : mute j) as M. destruct (word_miss i j c S M) as [e W]. eapply spec_missed; [exact W|]. pose proof (s_angle E i) as Ha. destruct (t_angle_addr E i) as [[[r a]|e1|x] n] eqn:AA; cbn [spec] in Ha; [| |exact I].
    + destruct Ha as (H1 & H2 & _ & j' & c' & S' & H3). cbn [t_attempt t_ok fst snd spec]. unfold SK in *. rewrite S in S'. injection S' as -> ->. split; [|exact H2]. eapply post_weak; [apply (post_times 3 200 380 i r n _ 3 H1)|lia|lia]. lia.
    + eapply spec_missed; [reflexivity|]. destruct (addr_spec_mute E i j c S M) as [e2 X]. eapply spec_missed; [exact X|]. unfold t_domain. cbn [t_match_parsers]. destruct (dot_atom_miss E i j c S A) as [e3 D].
      rewrite D. cbn [t_attempt fst snd]. pose proof (s_domain_literal i) as L. destruct (t_domain_literal i) as [[[r d]|e'|x] m] eqn:DL; cbn [spec] in L; [|exact I|exact I]. cbn [t_attempt t_ok fst snd spec]. destruct L as (L1 & L2 & L3 & L4). specialize (L4 j c S). split; [|exact L2].
      assert (N : forall t, j <> 60%N :: t).
      { intros t ->. unfold t_domain_literal in DL. pose proof (s_optional_cfws i) as O. destruct (t_optional t_cfws i) as [[[r0 o]|e0|x] n0]; cbn [spec] in O; [|contradiction|discriminate]. destruct O as [_ O]. unfold SK in S. rewrite S in O. injection O as <- <-. discriminate DL. }
      destruct (angle_miss E i j c S N) as [e4 Y]. rewrite AA in Y. injection Y as _ ->. eapply post_weak; [apply (post_times 7 60 80 i r m _ 9 L1)|lia|lia]. lia.
  - destruct (atom_miss i j c S A) as [e W]. unfold t_word. cbn [t_match_parsers]. rewrite W. cbn [t_attempt fst snd]. pose proof (domain_miss E i j c S A (fun t => quote_char j 91 t Q ltac:(lia))) as D.
    pose proof (s_quoted_string i) as H. pose proof (qs_least i j c S) as H'. destruct (t_quoted_string i) as [[[r a]|e1|x] n] eqn:QS; cbn [spec] in H, H'; [| |exact I].
    + cbn [t_attempt t_ok fst snd]. destruct (t_domain E i) as [[[r' d]|e2|x] m]; cbn [spec] in D; [contradiction| |exact I]. cbn. destruct H as (H1 & H2 & H3). split; [|lia]. eapply post_weak; [apply (post_times 4 100 80 i r n _ 4 H1)|lia|lia]. lia.
    + destruct (angle_miss E i j c S (fun t => quote_char j 60 t Q ltac:(lia))) as [e2 Y].
      assert (Z : exists e5 m, t_addr_spec E i = (Err e5, m)). { unfold t_addr_spec, t_local_part. cbn [t_match_parsers]. destruct (dot_atom_miss E i j c S A) as [e3 Z]. rewrite Z. cbn [t_attempt]. rewrite QS. cbn. do 2 eexists. reflexivity. }
      destruct Z as (e5 & m & Z). cbn [t_attempt t_err fst snd]. rewrite Y. cbn [t_attempt fst snd]. rewrite Z. cbn [t_attempt fst snd]. destruct (t_domain E i) as [[[r' d]|e4|x] q]; cbn [spec] in D; [contradiction|exact I|exact I].
Qed.
Lemma upto_received_token : forall E i, upto 1300 1300 i (t_received_token_parser E i).
Proof.
  intros E i. pose proof (s_received_token E i) as H. destruct (t_received_token_parser E i) as [[[r a]|e|x] n] eqn:T; cbn [spec] in H; [| |exact I].
  - destruct H as [H _]. apply post_upto in H as [H1 H2]. split; [exact H1|lia].
  - clear H. unfold t_received_token_parser in T. pose proof (upto_word i) as W. destruct (t_word i) as [[[r w]|e1|x] m]; [| |discriminate].
    + exfalso. cbn [t_attempt] in T. destruct (t_domain E i) as [[[r' d]|e2|x] q]; cbn [t_attempt t_ok fst snd] in T; [|discriminate|discriminate]. destruct (length w <? length d); discriminate.
    + match type of T with t_attempt _ _ ?f = _ => assert (U : upto 1050 871 i f) end.
      { eapply upto_weak; [eapply upto_attempt; [apply upto_angle|intros r a; cbn beta iota; apply upto_ok|]; eapply upto_attempt; [apply upto_addr_spec|intros r a; cbn beta iota; apply upto_ok|]; eapply upto_attempt; [apply upto_domain|intros r a; cbn beta iota; apply upto_ok|apply upto_err]| |]; lia. }
      match type of T with t_attempt _ _ ?f = _ => destruct f as [[[r a]|e2|x] q] end; cbn in T; try discriminate. injection T as <- <-. unfold upto, spec in *. lia.
Qed.
Lemma stuck_token : forall E i, stuck i -> nope (t_received_token_parser E i).
Proof.
  intros E i H. unfold t_received_token_parser. destruct (skip_or i) as [(j & c & S)|(x & n & S)].
  2:{ unfold t_word. cbn [t_match_parsers]. unfold t_atom at 1. rewrite S. exact I. }
  pose proof (SK_stuck _ _ _ S H). subst j. pose proof (stuck_mute i H) as M. assert (N : forall x t, is_lead x = false -> i <> x :: t) by (intros x t Hx ->; destruct H as [(y & r & X & Y) _]; injection X as -> _; congruence).
  destruct (word_miss i i c S M) as [e W]. rewrite W. destruct (angle_miss E i i c S (fun t => N 60%N t eq_refl)) as [e2 Y]. destruct (addr_spec_mute E i i c S M) as [e3 X]. pose proof (domain_miss E i i c S (proj1 M) (fun t => N 91%N t eq_refl)) as D.
  cbn [t_attempt]. rewrite Y. cbn [t_attempt]. rewrite X. cbn [t_attempt]. destruct (t_domain E i) as [[[r' d]|e4|x] m]; cbn [spec] in D; [contradiction|exact I|exact I].
Qed.
Lemma token_turns : forall E, turns 1900 1200 stuck (t_received_token_parser E) (fun _ => 0).
Proof.
  intros E i. eapply spec_weak; [apply s_received_token| |auto]. cbn beta. intros r a n ([H1 H4] & H2). split; [exact H1|]. split; [exact H2|]. split; [ah|]. destruct H4 as [H4|[H4 H5]]; [left; lia|]. right. split; [exact H4|]. split; [now apply stuck_token|lia].
Qed.
Lemma upto_received : exists K k, forall E i, upto K k i (t_received_value E i).
Proof.
  do 2 eexists. intros E i. unfold t_received_value. change (bs ";") with [59%N]. eapply upto_bind; [eapply upto_many; [exact (token_turns E)|exact (upto_received_token E)]|]. intros. cbn beta iota. eapply upto_bind; [apply upto_char; lia|]. intros. cbn beta iota. eapply upto_bind; [apply upto_date_time|]. intros. apply upto_ok.
Qed.
Lemma upto_bcc : exists K k, forall E i, upto K k i (t_bcc_value E i).
Proof.
  destruct upto_address_list as (K & k & H). do 2 eexists. intros E i. unfold t_bcc_value. eapply upto_attempt; [apply H|intros r a; apply upto_ok|]. eapply upto_attempt; [apply upto_cfws|intros r a; apply upto_ok|apply upto_err].
Qed.

(* The work of the parsers of addresses. *)
From Coq Require Import Lia ZifyBool ZifyNat ZifyN.
From Verif Require Import Base Utf8 CharSets Combinators Whitespace QuotedString Common Time Address MimeFields Fields Message Email Timed Post TimedFacts TimedWords.

(* ---- dot atoms ---- *)
Lemma starts_char : forall i x, starts_with i [x] = true -> exists r, i = x :: r.
Proof. intros i x H. apply starts_app in H. eexists. exact H. Qed.
Lemma s_dot_step : forall E i, spec (fun r a n => ahead i r /\ reach r < reach i /\ length a + length r = length i /\ n + 2 * reach r <= 2 * reach i + 2 /\ begins is_dot i) (fun n => n <= 3) (t_dot_atom_step E i).
Proof.
  intros E i. unfold t_dot_atom_step. change (bs ".") with [46%N]. apply spec_test; intros Q; [|apply spec_err; cbn [length]; lia]. destruct (starts_char i 46%N Q) as [j ->].
  pose proof (ahead_cons 46%N j ltac:(lia)) as A1. pose proof (reach_cons 46%N j ltac:(lia)) as R1. eapply spec_known; [reflexivity|]. cbn beta iota. change (skipn 1 (46%N :: j)) with j.
  assert (B : begins is_dot (46%N :: j)) by (exists 46%N, j; auto). destruct (f_compatibility_fixes E).
  - eapply spec_bind; [apply s_take_while; exact atext_plain|intros n []|]. cbn beta. intros r a n (H1 & H2 & H3 & H4 & _). apply spec_concat, spec_ok. rewrite app_length. cbn [length] in *. split; [ah|]. split; [ah|]. split; [ah|]. split; [ah|exact B].
  - eapply spec_bind; [apply s_take_while1; exact atext_plain|cbn [length]; intros; lia|]. cbn beta. intros r a n (H1 & H2 & H3 & H4 & H5 & _). apply spec_concat, spec_ok. rewrite app_length. cbn [length] in *. split; [ah|]. split; [ah|]. split; [ah|]. split; [ah|exact B].
Qed.
Lemma dot_turns : forall E, turns 20 0 (fun _ => False) (t_dot_atom_step E) (fun w => 2 * length w).
Proof.
  intros E j. eapply spec_weak; [apply s_dot_step| |auto]. cbn beta. intros r' b m (K1 & K2 & K3 & K4 & _). split; [exact K1|]. split; [exact K2|]. split; [ah|left; ah].
Qed.
Lemma s_dot_text : forall E i j1 a, t_take_while1 is_atext i = (Ok (j1, a), S (length a)) -> ahead i j1 -> length a + length j1 = length i -> length a > 0 ->
  spec (fun r d n => ahead j1 r /\ n + 30 * reach r <= 30 * reach i + 10 /\ length d + length r <= length i /\ (r = j1 /\ d = a /\ n <= 2 * length a + 6 \/ begins is_dot j1 /\ length a < length d) /\ S (length a) <= n) (fun _ => False) (t_dot_atom_text E i).
Proof.
  intros E i j1 a T L1 L2 L3. unfold t_dot_atom_text. eapply spec_known; [exact T|]. cbn beta iota. unfold t_collect_many. pose proof (s_dot_step E j1) as St. destruct (t_dot_atom_step E j1) as [[[r2 b]|e|x] m2] eqn:DS.
  - cbn [spec] in St. destruct St as (S1 & S2 & S3 & S4 & S5).
    eapply spec_bind with (G := fun r d n => ahead j1 r /\ length d + length r <= length j1 /\ length d > 0 /\ n + 22 * reach r <= 22 * reach j1 + 5) (B := fun _ => False); [|intros n []|].
    + unfold t_many. cbn [t_many_fuel]. rewrite DS. cbn [t_attempt].
      eapply spec_bind with (G := fun r l n => ahead j1 r /\ length (concat l) + length r <= length j1 /\ length (concat l) > 0 /\ n + 20 * reach r <= 20 * reach j1 + 5) (B := fun _ => False); [|intros n []|].
      * apply spec_turn. assert (X : forall k : bytes * bytes -> timed (bytes * list bytes), (fst (k (r2, b)), m2 + snd (k (r2, b))) = t_bind (Ok (r2, b), m2) k) by reflexivity. rewrite (X (fun '(i', a0) => let+ (r, l) := t_many_fuel (length j1) (t_dot_atom_step E) i' in t_ok (r, a0 :: l))). clear X.
        eapply spec_known; [reflexivity|]. cbn beta iota. eapply spec_bind; [apply (many_cost _ _ _ _ _ _ (dot_turns E))|intros n []|]. cbn beta. intros r l n (K1 & K2 & K3 & K4 & K5). destruct K5 as [K5|[[] _]]. rewrite sum_concat in K2.
        apply (spec_erred _ _ _ _ (s_dot_step E r)) in K4. cbn beta in K4. apply spec_ok. cbn [concat]. rewrite app_length. split; [ah|]. split; [ah|]. split; [ah|ah].
      * cbn beta. intros r l n (K1 & K2 & K3 & K4). unfold t_step, spec. split; [exact K1|]. split; [exact K2|]. split; [exact K3|ah].
    + cbn beta. intros r d n (K1 & K2 & K3 & K4). apply spec_concat, spec_ok. rewrite app_length. split; [exact K1|]. split; [ah|]. split; [ah|]. split; [right; split; [exact S5|ah]|ah].
  - cbn [spec] in St. eapply spec_bind with (G := fun r d n => r = j1 /\ d = [] /\ n <= 5) (B := fun _ => False); [|intros n []|].
    + eapply spec_bind; [apply many_nope; rewrite DS; exact I|intros n []|]. cbn beta. intros r l n (-> & -> & -> & _). rewrite DS. unfold t_step, spec. cbn [concat length snd]. split; [reflexivity|]. split; [reflexivity|lia].
    + cbn beta. intros r d n (-> & -> & H). apply spec_concat, spec_ok. rewrite app_nil_r. split; [apply ahead_refl|]. cbn [length]. split; [ah|]. split; [ah|]. split; [left; split; [reflexivity|split; [reflexivity|lia]]|ah].
  - unfold t_many. cbn [t_many_fuel]. rewrite DS. exact I.
Qed.
Lemma s_dot_text_any : forall E i, spec (fun r d n => ahead i r /\ reach r < reach i /\ n + 30 * reach r <= 30 * reach i + 10 /\ length d + length r <= length i) (fun n => n = 1 /\ stops is_atext i) (t_dot_atom_text E i).
Proof.
  intros E i. destruct (stops_or is_atext i) as [H|H].
  - unfold t_dot_atom_text. destruct (take1_miss is_atext i H) as [e X]. rewrite X. split; [reflexivity|exact H].
  - destruct (take1_hit is_atext i atext_plain H) as (a & j1 & T & L1 & L2 & L3 & L4). eapply spec_weak; [apply (s_dot_text E i j1 a T L1 L3 L4)| |intros n []]. cbn beta. intros r d n (K1 & K2 & K3 & _). split; [ah|]. split; [ah|]. split; [exact K2|exact K3].
Qed.
Lemma dot_atom_miss : forall E i j c, SK i j c -> stops is_atext j -> exists e, t_dot_atom E i = (Err e, c + 1).
Proof. intros E i j c H S. unfold t_dot_atom, t_dot_atom_text. rewrite H. destruct (take1_miss is_atext j S) as [e X]. cbn [t_bind]. rewrite X. eexists. reflexivity. Qed.
Lemma s_dot_atom : forall E i j c j1 a, SK i j c -> t_take_while1 is_atext j = (Ok (j1, a), S (length a)) -> begins is_atext j -> ahead j j1 -> length a + length j1 = length j -> length a > 0 ->
  spec (fun r d n => post 50 50 i r n /\ reach r < reach i /\ length d + length r <= length i /\
          (d = a /\ (exists c2, SK j1 r c2 /\ c + S (length a) + c2 <= n <= 2 * (c + S (length a) + c2) + 4) \/ begins is_dot j1 /\ length a < length d /\ c + S (length a) <= n)) (fun _ => False) (t_dot_atom E i).
Proof.
  intros E i j c j1 a H T B L1 L2 L3. unfold t_dot_atom. eapply spec_known; [exact H|]. cbn beta. eapply spec_bind; [apply (s_dot_text E j j1 a T L1 L2 L3)|intros n []|]. cbn beta.
  intros r d n (K1 & K2 & K3 & K4 & K5). apply spec_skip. intros r' c2 S. apply spec_ok. destruct (SK_free i j c H (begins_free _ _ B atext_lead)) as [P1 P2]. pose proof (SK_post _ _ _ S) as [Q1 Q2].
  split; [split; [ah|destruct Q2 as [Q2|[Q2 Q3]]; [left; ah|right; split; [exact Q2|ah]]]|]. split; [ah|]. split; [ah|]. destruct K4 as [(-> & -> & K4)|[K4 K6]]; [left; split; [reflexivity|exists c2; split; [exact S|lia]]|right; split; [exact K4|split; [exact K6|lia]]].
Qed.
Lemma dot_quiet : forall i, begins is_dot i -> quiet i /\ mute i.
Proof. intros i (c & r & -> & H). unfold is_dot in H. apply N.eqb_eq in H. subst c. split; [split; [reflexivity|split; [reflexivity|now destruct r]]|split; reflexivity]. Qed.
(* where there is a dot atom there is an atom, ending there too or at the first dot *)
Lemma dot_atom_atom : forall E i r d n, t_dot_atom E i = (Ok (r, d), n) ->
  spec (fun r' w m => m <= n + 12 /\ (r' = r /\ w = d \/ begins is_dot r' /\ length w < length d)) (fun _ => False) (t_atom i) /\ post 50 50 i r n /\ reach r < reach i /\ length d + length r <= length i.
Proof.
  intros E i r d n H. destruct (skip_or i) as [(j & c & S)|(x & m & S)]; [|exfalso; unfold t_dot_atom in H; rewrite S in H; discriminate].
  destruct (stops_or is_atext j) as [A|A]; [destruct (dot_atom_miss E i j c S A) as [e X]; rewrite X in H; discriminate|].
  destruct (s_atom i j c S A) as (a & j1 & T & L1 & L2 & L3 & L4 & Hm). pose proof (s_dot_atom E i j c j1 a S T A L1 L3 L4) as Hd. rewrite H in Hd. cbn [spec] in Hd. destruct Hd as (D1 & D2 & D3 & D4).
  split; [|split; [exact D1|split; [exact D2|exact D3]]]. eapply spec_weak; [exact Hm| |auto]. cbn beta. intros r' w m (-> & c2 & S2 & ->). destruct D4 as [(-> & c3 & S3 & D4)|(D4 & D5 & D6)].
  - unfold SK in S2, S3. rewrite S2 in S3. injection S3 as -> ->. split; [lia|left; auto].
  - destruct (dot_quiet j1 D4) as [Q _]. destruct (SK_quiet _ _ _ S2 Q) as [-> Q2]. split; [lia|right; auto].
Qed.
Lemma s_dot_atom_any : forall E i, spec (fun r d n => post 50 50 i r n /\ reach r < reach i /\ length d + length r <= length i) (fun n => n <= 50 * reach i + 50) (t_dot_atom E i).
Proof.
  intros E i. destruct (t_dot_atom E i) as [[[r d]|e|x] n] eqn:H; [apply dot_atom_atom in H; apply H| |exact I]. cbn [spec]. destruct (skip_or i) as [(j & c & S)|(x & m & S)]; [|unfold t_dot_atom in H; rewrite S in H; discriminate].
  destruct (stops_or is_atext j) as [A|A].
  - destruct (dot_atom_miss E i j c S A) as [e' X]. rewrite X in H. injection H as _ <-. apply SK_post, post_upto in S. lia.
  - destruct (s_atom i j c S A) as (a & j1 & T & L1 & L2 & L3 & L4 & Hm). pose proof (s_dot_atom E i j c j1 a S T A L1 L3 L4) as Hd. rewrite H in Hd. contradiction.
Qed.

(* ---- message identifiers ---- *)
Lemma spec_ocfws : forall A i (k : bytes * option bytes -> timed (bytes * A)) (G : bytes -> A -> nat -> Prop) (B : nat -> Prop),
  (forall j o c, SK i j c -> spec (fun r a n => G r a (c + n)) (fun n => B (c + n)) (k (j, o))) -> spec G B (t_bind (t_optional t_cfws i) k).
Proof. intros A i k G B H. eapply spec_bind; [apply s_optional_cfws|intros n []|]. cbn beta. intros r o n [_ X]. exact (H r o n X). Qed.
Lemma char_free : forall c r, is_lead c = false -> free (c :: r).
Proof. auto. Qed.
Lemma s_no_fold : forall i, spec (fun r d n => ahead i r /\ n + 2 * reach r <= 2 * reach i + 5 /\ length d + length r <= length i) (fun n => n <= reach i + 5) (t_no_fold_litteral i).
Proof.
  intros i. unfold t_no_fold_litteral. change (bs "[") with [91%N]. change (bs "]") with [93%N]. eapply spec_bind; [apply s_char; lia|intros n ->; lia|]. cbn beta. intros r [] n (-> & H1 & H2 & ->).
  eapply spec_bind; [apply s_take_while; exact dtext_plain|intros n []|]. cbn beta. intros r1 d n (K1 & K2 & K3 & -> & _). eapply spec_bind; [apply s_char; lia|intros n ->; cbn [length] in *; ah|]. cbn beta.
  intros r2 [] n (-> & L1 & L2 & ->). apply spec_ok. cbn [length] in *. split; [ah|]. split; [ah|ah].
Qed.
Lemma s_message_id : forall E i, spec (fun r d n => post 60 90 i r n /\ reach r < reach i) (fun n => n <= 100 * reach i + 90) (t_message_id E i).
Proof.
  intros E i. unfold t_message_id. change (bs "<") with [60%N]. change (bs "@") with [64%N]. change (bs ">") with [62%N]. apply spec_ocfws. intros j _ c S. pose proof (SK_post _ _ _ S) as P. apply post_upto in P as [P1 P2].
  eapply spec_bind; [apply s_char; lia|intros n ->; lia|]. cbn beta. intros r1 [] n (-> & H1 & H2 & ->). apply SK_free in S as [_ S]; [|reflexivity].
  eapply spec_bind; [apply s_dot_text_any|intros n [-> _]; lia|]. cbn beta. intros r2 d n (K1 & K2 & K3 & K4). eapply spec_bind; [apply s_char; lia|intros m ->; ah|]. cbn beta. intros r3 [] m (-> & L1 & L2 & ->).
  eapply spec_bind with (G := fun r d n => ahead r3 r /\ n + 30 * reach r <= 30 * reach r3 + 10) (B := fun n => n <= 30 * reach r3 + 10).
  { cbn [t_match_parsers]. eapply spec_attempt; [apply s_dot_text_any| |]; cbn beta.
    - intros r a m (M1 & M2 & M3 & M4). apply spec_ok. split; [exact M1|lia].
    - intros m [-> _]. eapply spec_attempt; [apply s_no_fold| |]; cbn beta; [|intros; apply spec_err; lia]. intros r a m (M1 & M2 & M3). apply spec_ok. split; [exact M1|ah]. }
  { intros m M. ah. }
  cbn beta. intros r4 d' m (M1 & M2). eapply spec_bind; [apply s_char; lia|intros q ->; ah|]. cbn beta. intros r5 [] q (-> & N1 & N2 & ->). apply spec_ocfws. intros r6 _ c' S'. apply SK_post in S' as [Q1 Q2]. apply spec_ok.
  split; [split; [ah|destruct Q2 as [Q2|[Q2 Q3]]; [left; ah|right; split; [exact Q2|ah]]]|ah].
Qed.
(* at a dead end there is only one character that helps *)
Lemma stuck_lead : forall i c m, stuck i -> is_lead c = false -> erred (t_tag [c] m i).
Proof.
  intros i c m [(x & r & -> & H) _] L. unfold t_tag, tag, t_step, erred. destruct (starts_with (x :: r) [c]) eqn:Q; [|exact I]. apply starts_char in Q as [t Q]. injection Q as -> _. congruence.
Qed.
Lemma nope_ocfws : forall A i (k : bytes * option bytes -> timed (bytes * A)), stuck i -> (forall o, nope (k (i, o))) -> nope (t_bind (t_optional t_cfws i) k).
Proof. intros A i k H K. apply spec_ocfws. intros j o c S. rewrite (SK_stuck _ _ _ S H). eapply spec_weak; [apply K| |]; cbn; auto. Qed.
Lemma nope_skip : forall A i (k : bytes -> timed (bytes * A)), stuck i -> nope (k i) -> nope (let+ j := t_skip_cfws i in k j).
Proof. intros A i k H K. apply spec_skip. intros j c S. rewrite (SK_stuck _ _ _ S H). eapply spec_weak; [apply K| |]; cbn; auto. Qed.
Lemma stuck_message_id : forall E i, stuck i -> nope (t_message_id E i).
Proof. intros E i H. unfold t_message_id. apply nope_ocfws; [exact H|]. intros o. cbn beta iota. apply nope_bind, erred_nope. change (bs "<") with [60%N]. now apply stuck_lead. Qed.
Lemma message_id_turns : forall E, turns 200 90 stuck (t_message_id E) (fun _ => 0).
Proof.
  intros E i. eapply spec_weak; [apply s_message_id| |auto]. cbn beta. intros r a n ([H1 H4] & H2). split; [exact H1|]. split; [exact H2|]. split; [ah|]. destruct H4 as [H4|[H4 H5]]; [left; lia|].
  right. split; [exact H4|]. split; [now apply stuck_message_id|lia].
Qed.
Lemma upto_message_id : forall E i, upto 100 90 i (t_message_id E i).
Proof. intros E i. eapply spec_weak; [apply s_message_id| |auto]. cbn beta. intros r a n (H1 & H2). apply post_upto in H1. split; [apply H1|lia]. Qed.
Lemma upto_many1 : forall A K k D (p : timed_parser A) size K' k' i, turns K k D p size -> (forall j, upto K' k' j (p j)) -> upto (K + K') (k + k' + 2) i (t_many1 p i).
Proof.
  intros A K k D p size K' k' i Ht Hp. eapply spec_weak; [apply (s_many1 _ _ _ _ _ _ Ht)| |]; cbn beta.
  - intros r l n (_ & H1 & _ & _ & H4 & H5). split; [exact H1|]. specialize (Hp r). apply (spec_erred _ _ _ _ Hp) in H4. pose proof (mono K' (reach r) (reach i) ltac:(ah)). destruct H5 as [H5|[_ H5]]; lia.
  - intros n [H ->]. specialize (Hp i). apply (spec_erred _ _ _ _ Hp) in H. lia.
Qed.
Lemma upto_message_ids : forall E i, upto 300 182 i (t_many1 (t_message_id E) i).
Proof. intros E i. exact (upto_many1 _ _ _ _ _ _ _ _ i (message_id_turns E) (upto_message_id E)). Qed.

(* ---- the parts of an address ---- *)
Lemma dot_err : forall E i, erred (t_dot_atom E i) -> exists j c, SK i j c /\ snd (t_dot_atom E i) = c + 1 /\ stops is_atext j.
Proof.
  intros E i H. destruct (skip_or i) as [(j & c & S)|(x & m & S)]; [|unfold t_dot_atom in H; rewrite S in H; contradiction]. exists j, c. split; [exact S|]. destruct (stops_or is_atext j) as [A|A].
  - destruct (dot_atom_miss E i j c S A) as [e X]. rewrite X. auto.
  - destruct (s_atom i j c S A) as (a & j1 & T & L1 & L2 & L3 & L4 & Hm). pose proof (s_dot_atom E i j c j1 a S T A L1 L3 L4) as Hd. apply (spec_erred _ _ _ _ Hd) in H. contradiction.
Qed.
Lemma post_local : forall i r n m, post 100 80 i r n -> m <= 2 * n + 1 -> post 200 161 i r m.
Proof. intros i r n m H K. exact (post_double 100 80 i r n m 1 H K). Qed.
Lemma s_local : forall E i, spec (fun r a n => post 200 161 i r n /\ reach r < reach i /\ length a + length r <= length i) (fun n => n <= 200 * reach i + 161) (t_local_part E i).
Proof.
  intros E i. unfold t_local_part. cbn [t_match_parsers]. destruct (t_dot_atom E i) as [[[r d]|e|x] n] eqn:D; [| |exact I].
  - apply dot_atom_atom in D as (_ & D1 & D2 & D3). unfold t_attempt at 1, spec. cbn [fst snd t_ok]. split; [|auto]. rewrite Nat.add_0_r. eapply post_weak; [exact D1|lia|lia].
  - destruct (dot_err E i) as (j & c & S & N & A); [rewrite D; exact I|]. rewrite D in N. cbn [snd] in N. subst n. eapply spec_missed; [reflexivity|]. cbn beta.
    eapply spec_attempt; [apply (spec_and _ _ _ _ _ _ (s_quoted_string i) (qs_least i j c S))| |]; cbn beta.
    + intros r a n ((H1 & H2 & H3) & H4). apply spec_ok. split; [|split; [ah|exact H3]]. apply (post_local i r n); [exact H1|lia].
    + intros n [H _]. apply spec_err. apply SK_post, post_upto in S. lia.
Qed.
Lemma s_domain_step : forall i, spec (fun r a n => ahead i r /\ reach r < reach i /\ length a + length r <= length i /\ n + 20 * reach r + 1 <= 20 * reach i)
  (fun n => exists r o c, t_optional t_fws i = (Ok (r, o), c) /\ n = c + 1) (t_domain_literal_step i).
Proof.
  intros i. unfold t_domain_literal_step. pose proof (s_optional_fws i) as H. destruct (t_optional t_fws i) as [[[r a]|e|c] n] eqn:F; cbn [spec] in H; [|contradiction|exact I]. destruct H as (H1 & H2 & H3 & H4).
  eapply spec_known; [reflexivity|]. cbn beta iota. eapply spec_weak; [apply s_take_while1; exact dtext_plain| |]; cbn beta.
  - intros r' s m (K1 & K2 & K3 & K4 & -> & K6 & K7). split; [ah|]. split; [ah|]. split; [ah|].
    destruct H2 as [H2|(-> & _ & H2)]; [ah|]. exfalso. apply not_stops in K6. eapply begins_not; [exact H2|]. eapply begins_stops; [exact K6|]. unfold is_dtext, is_wsp. lia.
  - intros m [-> _]. exists r, a, n. split; [reflexivity|lia].
Qed.
Lemma domain_turns : turns 20 0 (fun _ => False) t_domain_literal_step (fun w => 2 * length w).
Proof. intros j. eapply spec_weak; [apply s_domain_step| |auto]. cbn beta. intros r' b m (K1 & K2 & K3 & K4). split; [exact K1|]. split; [exact K2|]. split; [ah|left; ah]. Qed.
Lemma s_domain_literal : forall i, spec (fun r a n => post 60 80 i r n /\ reach r < reach i /\ length a + length r <= length i /\ (forall j c, SK i j c -> c <= n))
  (fun n => n <= 100 * reach i + 80 /\ (forall j c, SK i j c -> (forall t, j <> 91%N :: t) -> n = c + 2)) (t_domain_literal i).
Proof.
  intros i. unfold t_domain_literal. change (bs "[") with [91%N]. change (bs "]") with [93%N]. apply spec_ocfws. intros j _ c S. assert (U : forall j' c', SK i j' c' -> j' = j /\ c' = c) by (unfold SK in *; intros j' c' X; rewrite S in X; injection X as -> ->; auto).
  pose proof (SK_post _ _ _ S) as P. apply post_upto in P as [P1 P2].
  eapply spec_bind; [apply s_char; lia|intros n ->; split; [lia|intros j' c' X _; apply U in X as [-> ->]; reflexivity]|]. cbn beta. intros r1 [] n (-> & H1 & H2 & ->). apply SK_free in S as [_ S]; [|reflexivity].
  assert (V : forall n, n <= 100 * reach i + 80 -> n <= 100 * reach i + 80 /\ (forall j c, SK i j c -> (forall t, j <> 91%N :: t) -> n = c + 2)) by (intros n V; split; [exact V|intros j' c' X Y; apply U in X as [-> _]; exfalso; now apply (Y r1)]).
  unfold t_collect_many. eapply spec_bind with (G := fun r a m => ahead r1 r /\ erred (t_domain_literal_step r) /\ length a + length r <= length r1 /\ m + 22 * reach r <= 22 * reach r1 + 1 + snd (t_domain_literal_step r)) (B := fun _ => False); [|intros m []|].
  { eapply spec_bind; [apply (s_many _ _ _ _ _ _ domain_turns)|intros m []|]. cbn beta. intros r l m (K1 & K2 & K3 & K4 & K5). destruct K5 as [K5|[[] _]]. rewrite sum_concat in K2. unfold t_step, spec. split; [exact K1|]. split; [exact K4|]. split; [ah|ah]. }
  cbn beta. intros r a m (K1 & K2 & K3 & K4). pose proof (s_domain_step r) as Z. apply (spec_erred _ _ _ _ Z) in K2 as (r2 & o & c2 & F & K2). assert (K5 : m + 22 * reach r <= 22 * reach r1 + 1 + (c2 + 1)) by (rewrite <- K2; exact K4). clear Z K2 K4.
  pose proof (s_optional_fws r) as H. rewrite F in H. cbn [spec] in H. destruct H as (F1 & F2 & F3 & F4). eapply spec_known; [exact F|]. cbn beta iota.
  eapply spec_bind; [apply s_char; lia|intros n ->; apply V; ah|]. cbn beta. intros r3 [] n (-> & N1 & N2 & ->).
  assert (F5 : c2 + 2 * reach (93%N :: r3) <= 2 * reach r + 5).
  { destruct F2 as [F2|(E & _ & F2)]; [exact F2|]. exfalso. rewrite <- E in F2. eapply begins_not; [exact F2|reflexivity]. }
  clear F2 F. apply spec_ocfws. intros r4 _ c4 S4. apply SK_post in S4 as [Q1 Q2]. apply spec_ok. cbn [length] in *.
  split; [split; [ah|destruct Q2 as [Q2|[Q2 Q3]]; [left; ah|right; split; [exact Q2|ah]]]|]. split; [ah|]. split; [ah|]. intros j' c' X. apply U in X as [_ ->]. lia.
Qed.
Lemma s_domain : forall E i, spec (fun r a n => post 120 161 i r n /\ reach r < reach i /\ length a + length r <= length i) (fun n => n <= 200 * reach i + 161) (t_domain E i).
Proof.
  intros E i. unfold t_domain. cbn [t_match_parsers]. destruct (t_dot_atom E i) as [[[r d]|e|x] n] eqn:D; [| |exact I].
  - apply dot_atom_atom in D as (_ & D1 & D2 & D3). unfold t_attempt at 1, spec. cbn [fst snd t_ok]. split; [|auto]. rewrite Nat.add_0_r. eapply post_weak; [exact D1|lia|lia].
  - destruct (dot_err E i) as (j & c & S & N & A); [rewrite D; exact I|]. rewrite D in N. cbn [snd] in N. subst n. eapply spec_missed; [reflexivity|]. cbn beta. apply SK_post in S as P. apply post_upto in P as [P1 P2].
    eapply spec_attempt; [apply s_domain_literal| |]; cbn beta.
    + intros r a n (H1 & H2 & H3 & H4). specialize (H4 j c S). apply spec_ok. split; [|split; [ah|exact H3]]. change (post (2 * 60) (2 * 80 + 1) i r (c + 1 + (n + 0))). eapply post_double; [exact H1|lia].
    + intros n [H _]. apply spec_err. lia.
Qed.
Definition addr_size (a : email_address) : nat := length (a_local_part a) + length (a_domain a).
Lemma s_addr_spec : forall E i, spec (fun r a n => post 200 330 i r n /\ reach r < reach i /\ addr_size a + length r <= length i) (fun n => n <= 400 * reach i + 330) (t_addr_spec E i).
Proof.
  intros E i. unfold t_addr_spec. change (bs "@") with [64%N]. eapply spec_bind; [apply s_local|cbn beta; intros; lia|]. cbn beta. intros r1 l n (H1 & H2 & H3). apply post_upto in H1 as H4. destruct H4 as [H4 H5].
  eapply spec_bind; [apply s_char; lia|intros m ->; lia|]. cbn beta. intros r2 [] m (-> & K1 & K2 & ->). apply post_free in H1 as [_ H1]; [|reflexivity]. eapply spec_bind; [apply s_domain|intros m H; ah|]. cbn beta. intros r3 d m (L1 & L2 & L3).
  apply spec_ok. destruct L1 as [L1 L4]. unfold addr_size. cbn [a_local_part a_domain length] in *. split; [split; [ah|]|split; ah]. destruct L4 as [L4|[L4 L5]]; [left; ah|right; split; [exact L4|ah]].
Qed.
Lemma s_angle : forall E i, spec (fun r a n => post 200 380 i r n /\ reach r < reach i /\ addr_size a + length r <= length i /\ exists j c, SK i (60%N :: j) c /\ c <= n) (fun n => n <= 450 * reach i + 380) (t_angle_addr E i).
Proof.
  intros E i. unfold t_angle_addr. change (bs "<") with [60%N]. change (bs ">") with [62%N]. apply spec_ocfws. intros j _ c S. pose proof (SK_post _ _ _ S) as P. apply post_upto in P as [P1 P2].
  eapply spec_bind; [apply s_char; lia|intros n ->; lia|]. cbn beta. intros r1 [] n (-> & H1 & H2 & ->). apply SK_free in S as P; [|reflexivity]. destruct P as [_ P].
  eapply spec_bind; [apply s_addr_spec|intros m H; ah|]. cbn beta. intros r2 a n (K1 & K2 & K3). apply post_upto in K1 as K4. destruct K4 as [K4 K5].
  eapply spec_bind; [apply s_char; lia|intros m ->; ah|]. cbn beta. intros r3 [] m (-> & N1 & N2 & ->). apply post_free in K1 as [_ K1]; [|reflexivity]. apply spec_ocfws. intros r4 _ c4 S4. apply SK_post in S4 as [Q1 Q2]. apply spec_ok. cbn [length] in *.
  split; [split; [ah|destruct Q2 as [Q2|[Q2 Q3]]; [left; ah|right; split; [exact Q2|ah]]]|]. split; [ah|]. split; [ah|]. exists r1, c. split; [exact S|lia].
Qed.

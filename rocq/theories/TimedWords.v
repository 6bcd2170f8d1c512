(* The work of the value parsers, from quoted strings to addresses. *)
From Coq Require Import Lia ZifyBool ZifyNat ZifyN.
From Verif Require Import Base Utf8 CharSets Combinators Whitespace QuotedString Common Time Address MimeFields Fields Message Email Timed Post TimedFacts.

(* ---- bounds on the whole work ---- *)
Definition upto {A} (K k : nat) (i : bytes) (x : timed (bytes * A)) : Prop :=
  spec (fun r a n => ahead i r /\ n <= K * reach i + k) (fun n => n <= K * reach i + k) x.
Lemma upto_weak : forall A K k K' k' i (x : timed (bytes * A)), upto K k i x -> K <= K' -> k <= k' -> upto K' k' i x.
Proof.
  intros A K k K' k' i x H HK Hk. assert (K * reach i <= K' * reach i) by (apply Nat.mul_le_mono_r; exact HK). eapply spec_weak; [exact H| |]; cbn beta; intros; [|lia]. destruct H1. split; [assumption|lia].
Qed.
Lemma mono : forall K a b, a <= b -> K * a <= K * b.
Proof. intros. now apply Nat.mul_le_mono_l. Qed.
Lemma upto_bind : forall A C K1 k1 K2 k2 i (x : timed (bytes * A)) (k : bytes * A -> timed (bytes * C)),
  upto K1 k1 i x -> (forall r a, upto K2 k2 r (k (r, a))) -> upto (K1 + K2) (k1 + k2) i (t_bind x k).
Proof.
  intros A C K1 k1 K2 k2 i x k Hx Hk. eapply spec_bind; [exact Hx| |]; cbn beta.
  - intros n H. lia.
  - intros r a n [H1 H2]. pose proof (mono K2 (reach r) (reach i) ltac:(ah)). eapply spec_weak; [apply Hk| |]; cbn beta; [intros r' c m [H3 H4]; split; [ah|lia]|intros; lia].
Qed.
Lemma upto_attempt : forall A C K1 k1 K2 k2 K3 k3 i (x : timed (bytes * A)) (k : bytes * A -> timed (bytes * C)) f,
  upto K1 k1 i x -> (forall r a, upto K2 k2 r (k (r, a))) -> upto K3 k3 i f -> upto (K1 + (K2 + K3)) (k1 + (k2 + k3)) i (t_attempt x k f).
Proof.
  intros A C K1 k1 K2 k2 K3 k3 i x k f Hx Hk Hf. eapply spec_attempt; [exact Hx| |]; cbn beta.
  - intros r a n [H1 H2]. pose proof (mono K2 (reach r) (reach i) ltac:(ah)). eapply spec_weak; [apply Hk| |]; cbn beta; [intros r' c m [H3 H4]; split; [ah|lia]|intros; lia].
  - intros n H. eapply spec_weak; [exact Hf| |]; cbn beta; [intros r' c m [H3 H4]; split; [ah|lia]|intros; lia].
Qed.
Lemma upto_ok : forall A i (a : A), upto 0 0 i (t_ok (i, a)).
Proof. intros. split; [apply ahead_refl|lia]. Qed.
Lemma upto_err : forall A i e, upto 0 0 i (t_err e : timed (bytes * A)).
Proof. intros. cbn. lia. Qed.
Lemma upto_optional : forall A K k i (p : timed_parser A), upto K k i (p i) -> upto K k i (t_optional p i).
Proof. intros A K k i p H. unfold t_optional. eapply upto_weak; [eapply upto_attempt; [exact H|intros; apply upto_ok|apply upto_ok]|lia|lia]. Qed.
Lemma upto_char : forall c m i, (c <> 13)%N -> upto 0 2 i (t_tag [c] m i).
Proof. intros c m i H. eapply spec_weak; [apply s_char; exact H| |]; cbn beta; [intros r a n (_ & H1 & _ & ->); split; [exact H1|lia]|intros n ->; lia]. Qed.
Lemma upto_pmap : forall A C K k i (f : A -> C) p, upto K k i (p i) -> upto K k i (t_pmap f p i).
Proof. intros A C K k i f p H. unfold t_pmap. eapply upto_weak; [eapply upto_bind; [exact H|intros; apply upto_ok]|lia|lia]. Qed.
Lemma upto_map_err : forall A K k i (x : timed (bytes * A)) e, upto K k i x -> upto K k i (t_map_err x e).
Proof. intros A K k i [[[r a]|e|c] n] e' H; exact H. Qed.
Lemma upto_many : forall A K k D (p : timed_parser A) size K' k' i, turns K k D p size -> (forall j, upto K' k' j (p j)) -> upto (K + K') (k + k' + 2) i (t_many p i).
Proof.
  intros A K k D p size K' k' i Ht Hp. eapply spec_weak; [apply (s_many _ _ _ _ _ _ Ht)| |intros n []]. cbn beta. intros r l n (H1 & _ & _ & H4 & H5). split; [exact H1|].
  specialize (Hp r). apply (spec_erred _ _ _ _ Hp) in H4. pose proof (mono K' (reach r) (reach i) ltac:(ah)). destruct H5 as [H5|[_ H5]]; lia.
Qed.
Lemma upto_skip : forall A K k i (f : bytes -> timed (bytes * A)), (forall r, upto K k r (f r)) -> upto (50 + K) (20 + k) i (let+ r := t_skip_cfws i in f r).
Proof.
  intros A K k i f H. eapply specr_bind; [apply s_skip|intros n []|]. cbn beta. intros r n [H1 H2]. pose proof (mono K (reach r) (reach i) ltac:(ah)).
  eapply spec_weak; [apply H| |]; cbn beta; [intros r' c m [H3 H4]; split; [ah|destruct H2 as [H2|[_ H2]]; lia]|intros m H3; destruct H2 as [H2|[_ H2]]; lia].
Qed.
Lemma upto_cfws : forall i, upto 50 20 i (t_cfws i).
Proof. intros i. eapply spec_weak; [apply s_cfws| |]; cbn beta; [intros r a n ((H1 & H2) & _); split; [exact H1|destruct H2 as [H2|[_ H2]]; lia]|intros n [[H _]|[_ H]]; lia]. Qed.
Lemma upto_fws : forall i, upto 2 5 i (t_fws i).
Proof. intros i. eapply spec_weak; [apply s_fws| |]; cbn beta; [intros r a n (H1 & H2 & H3 & _); split; [exact H1|lia]|intros n [[H _]|[H _]]; lia]. Qed.
Lemma upto_take : forall f i, plain f -> upto 1 1 i (t_take_while f i).
Proof. intros f i H. eapply spec_weak; [apply s_take_while; exact H| |intros n []]. cbn beta. intros r a n (H1 & H2 & H3 & H4 & _). split; [exact H1|ah]. Qed.
Lemma upto_take1 : forall f i, plain f -> upto 1 1 i (t_take_while1 f i).
Proof. intros f i H. eapply spec_weak; [apply s_take_while1; exact H| |]; cbn beta; [|intros; lia]. intros r a n (H1 & H2 & H3 & H4 & H5 & _). split; [exact H1|ah]. Qed.
Lemma upto_match : forall A K k K' k' i (p : timed_parser A) ps, upto K k i (p i) -> upto K' k' i (t_match_parsers ps i) -> upto (K + K') (k + k') i (t_match_parsers (p :: ps) i).
Proof. intros A K k K' k' i p ps H1 H2. cbn [t_match_parsers]. eapply upto_weak; [eapply upto_attempt; [exact H1|intros r a; apply upto_ok|exact H2]|lia|lia]. Qed.
Lemma upto_match_nil : forall A i, upto 0 0 i (t_match_parsers ([] : list (timed_parser A)) i).
Proof. intros. apply upto_err. Qed.

(* ---- quoted strings ---- *)
(* the work up to r, linear in what was passed; or r can only be rejected *)
Definition post (K k : nat) (i r : bytes) (n : nat) : Prop := ahead i r /\ (n + K * reach r <= K * reach i + k \/ stuck r /\ n <= K * reach i + k).
Lemma post_weak : forall K k K' k' i r n, post K k i r n -> K <= K' -> k <= k' -> post K' k' i r n.
Proof.
  intros K k K' k' i r n [H1 H2] HK Hk. split; [exact H1|]. assert (exists q, K' = K + q) as [q ->] by (exists (K' - K); lia). pose proof (mono q (reach r) (reach i) ltac:(ah)). destruct H2 as [H2|[H2 H3]]; [left; lia|right; split; [exact H2|lia]].
Qed.
Lemma post_upto : forall K k i r n, post K k i r n -> ahead i r /\ n <= K * reach i + k.
Proof. intros K k i r n [H1 H2]. split; [exact H1|]. destruct H2 as [H2|[_ H2]]; lia. Qed.
(* no dead end *)
Definition free (i : bytes) : Prop := stops is_lead i.
Lemma free_stuck : forall i, free i -> stuck i -> False.
Proof. intros i H [K _]. eapply begins_not; eassumption. Qed.
Lemma post_free : forall K k i r n, post K k i r n -> free r -> ahead i r /\ n + K * reach r <= K * reach i + k.
Proof. intros K k i r n [H1 H2] H. split; [exact H1|]. destruct H2 as [H2|[H2 _]]; [lia|]. exfalso. eapply free_stuck; eassumption. Qed.
Definition is_quote (c : byte) : bool := (c =? 34)%N.
Lemma qtext_plain : plain is_qtext.
Proof. plainly. Qed.
Lemma atext_facts : forall c, is_atext c = true -> (33 <= c <= 126 /\ c <> 34 /\ c <> 40 /\ c <> 44 /\ c <> 46 /\ c <> 58 /\ c <> 59 /\ c <> 60 /\ c <> 62 /\ c <> 64 /\ c <> 91)%N.
Proof.
  intros c. unfold is_atext, is_alpha, is_digit, one_of. change (bs "!#$%&'*+-/=?^_`{|}~") with [33; 35; 36; 37; 38; 39; 42; 43; 45; 47; 61; 63; 94; 95; 96; 123; 124; 125; 126]%N. cbn [existsb]. lia.
Qed.
Lemma atext_plain : plain is_atext.
Proof. intros c H. apply atext_facts in H. lia. Qed.
Lemma dtext_plain : plain is_dtext.
Proof. plainly. Qed.
Lemma vchar_plain : plain is_vchar.
Proof. plainly. Qed.
Lemma digit_plain : plain is_digit.
Proof. plainly. Qed.
Lemma ftext_plain : plain is_ftext.
Proof. plainly. Qed.
(* the white space inside a string: t_fws or nothing *)
Lemma s_some_fws : forall i, spec (fun r a n => ahead i r /\ (n + 2 * reach r <= 2 * reach i + 5 \/ r = i /\ n <= reach i + 5 /\ begins is_wsp i) /\ length a + length r <= length i /\ n <= 2 * reach i + 5)
  (fun n => False) (t_attempt (t_fws i) (fun '(r, s) => t_ok (r, s)) (t_ok (i, []))).
Proof.
  intros i. pose proof (s_optional_fws i) as H. unfold t_optional in H. destruct (t_fws i) as [[[r a]|e|c] n]; cbn in *; exact H.
Qed.
Lemma s_quoted_string_step : forall i, spec (fun r a n => ahead i r /\ reach r < reach i /\ length a + length r <= length i /\ n + 20 * reach r + 1 <= 20 * reach i)
  (fun n => exists r a c, t_attempt (t_fws i) (fun '(r, s) => t_ok (r, s)) (t_ok (i, [])) = (Ok (r, a), c) /\ n = c + 4) (t_quoted_string_step i).
Proof.
  intros i. unfold t_quoted_string_step. pose proof (s_some_fws i) as H. destruct (t_attempt (t_fws i) _ _) as [[[r a]|e|c] n] eqn:F; cbn [spec] in H; [|contradiction|exact I]. destruct H as (H1 & H2 & H3 & H4).
  eapply spec_known; [reflexivity|]. cbn beta iota. eapply spec_attempt; [apply s_take_while1; exact qtext_plain| |]; cbn beta.
  - intros r' s m (K1 & K2 & K3 & K4 & -> & K6 & K7). apply spec_concat, spec_ok. rewrite app_length. split; [ah|]. split; [ah|]. split; [ah|].
    destruct H2 as [H2|(-> & _ & H2)]; [ah|]. exfalso. apply not_stops in K6. eapply begins_not; [exact H2|]. eapply begins_stops; [exact K6|]. unfold is_qtext, is_wsp. lia.
  - intros m [-> _]. eapply spec_attempt; [apply s_quoted_pair| |]; cbn beta.
    + intros r' s m (K1 & K2 & K3 & -> & K5). apply spec_concat, spec_ok. rewrite app_length. split; [ah|]. split; [ah|]. split; [ah|].
      destruct H2 as [H2|(-> & _ & H2)]; [ah|]. exfalso. eapply begins_not; [exact H2|]. eapply begins_stops; [exact K5|]. unfold is_bslash, is_wsp. lia.
    + intros m ->. apply spec_err. exists r, a, n. split; [reflexivity|lia].
Qed.
Lemma s_quoted_string : forall i, spec (fun r a n => post 100 80 i r n /\ 2 + reach r <= reach i /\ length a + length r <= length i) (fun n => n <= 100 * reach i + 80) (t_quoted_string i).
Proof.
  intros i. unfold t_quoted_string. eapply specr_bind; [apply s_skip|intros n []|]. cbn beta. intros j n [H1 H2]. apply spec_test; intros Q; [|apply spec_err; cbn [length]; destruct H2 as [H2|[_ H2]]; lia].
  apply starts_app in Q. cbn [length] in Q. set (j1 := skipn 1 j) in *. change ([DQUOTE] ++ j1) with (34%N :: j1) in Q. rewrite Q. pose proof (ahead_cons 34%N j1 ltac:(lia)) as A1. pose proof (reach_cons 34%N j1 ltac:(lia)) as R1.
  assert (H3 : n + 50 * reach j <= 50 * reach i + 20).
  { destruct H2 as [H2|[[H2 _] _]]; [exact H2|]. exfalso. rewrite Q in H2. eapply begins_not; [exact H2|reflexivity]. }
  clear H2. rewrite Q in H1, H3. clearbody j1. clear Q j. eapply spec_known; [reflexivity|]. cbn beta iota. change (skipn 1 (34%N :: j1)) with j1.
  assert (T : turns 20 0 (fun _ => False) t_quoted_string_step (fun w => 2 * length w)).
  { intros j. eapply spec_weak; [apply s_quoted_string_step| |auto]. cbn beta. intros r' b m (K1 & K2 & K3 & K4). split; [exact K1|]. split; [exact K2|]. split; [ah|left; ah]. }
  unfold t_collect_many. eapply spec_bind with (G := fun r a m => ahead j1 r /\ erred (t_quoted_string_step r) /\ length a + length r <= length j1 /\ m + 22 * reach r <= 22 * reach j1 + 1 + snd (t_quoted_string_step r)) (B := fun _ => False); [|intros m []|].
  { eapply spec_bind; [apply (s_many _ _ _ _ _ _ T)|intros m []|]. cbn beta. intros r l m (K1 & K2 & K3 & K4 & K5). destruct K5 as [K5|[[] _]]. rewrite sum_concat in K2. unfold t_step, spec. split; [exact K1|]. split; [exact K4|]. split; [ah|ah]. }
  cbn beta. intros r a m (K1 & K2 & K3 & K4). pose proof (s_quoted_string_step r) as S. apply (spec_erred _ _ _ _ S) in K2 as (r2 & w & c & F & K2). assert (K5 : m + 22 * reach r <= 22 * reach j1 + 1 + (c + 4)) by (rewrite <- K2; exact K4). clear S K2 K4.
  pose proof (s_some_fws r) as H. rewrite F in H. cbn [spec] in H. destruct H as (F1 & F2 & F3 & F4).
  eapply spec_bind with (G := fun r' a' m' => r' = r2 /\ m' <= c + length a + length w /\ length a' = length a + length w) (B := fun _ => False).
  { destruct (t_fws r) as [[[r' s]|e|x] c'] eqn:FF; cbn in F |- *; [injection F as -> -> <-|injection F as <- <- <-|discriminate]. { split; [reflexivity|]. split; [lia|apply app_length]. } split; [reflexivity|]. split; lia. }
  { intros m' []. }
  cbn beta. intros r' a' m' (-> & M1 & M2). apply spec_test; intros Q; [|apply spec_err; cbn [length]; ah].
  apply starts_app in Q. cbn [length] in Q. set (j2 := skipn 1 r2) in *. change ([DQUOTE] ++ j2) with (34%N :: j2) in Q. rewrite Q. pose proof (ahead_cons 34%N j2 ltac:(lia)) as A2. pose proof (reach_cons 34%N j2 ltac:(lia)) as R2.
  assert (F5 : c + 2 * reach r2 <= 2 * reach r + 5).
  { destruct F2 as [F2|(E & _ & F2)]; [exact F2|]. exfalso. rewrite <- E, Q in F2. eapply begins_not; [exact F2|reflexivity]. }
  rewrite Q in F1, F3, F5. clearbody j2. clear Q F2 F. eapply spec_known; [reflexivity|]. cbn beta iota. change (skipn 1 (34%N :: j2)) with j2. eapply specr_bind; [apply s_skip|intros q []|]. cbn beta. intros r3 q [L1 L2]. apply spec_ok. cbn [length] in *.
  split; [|split; ah]. split; [ah|]. destruct L2 as [L2|[L2 L3]]; [left; ah|right; split; [exact L2|ah]].
Qed.

(* ---- atoms and words ---- *)
Lemma take1_hit : forall f i, plain f -> begins f i -> exists a r, t_take_while1 f i = (Ok (r, a), S (length a)) /\ ahead i r /\ stops f r /\ length a + length r = length i /\ length a > 0.
Proof.
  intros f i H (c & t & -> & F). pose proof (span_stops f (c :: t)) as Y. pose proof (span_ahead f (c :: t) H) as Z. pose proof (span_length f (c :: t)) as L. pose proof (span_utf8 f (c :: t) H) as U.
  unfold t_take_while1, take_while1, t_step. rewrite F. cbn [negb]. assert (length (fst (span f (c :: t))) > 0) by (cbn; rewrite F; destruct (span f t); cbn; lia).
  destruct (span f (c :: t)) as [a r]. cbn [fst snd] in *. rewrite U. cbn [bind]. exists a, r. split; [reflexivity|]. repeat split; auto; apply Z.
Qed.
Lemma take1_miss : forall f i, stops f i -> exists e, t_take_while1 f i = (Err e, 1).
Proof. intros f [|c t] H; unfold t_take_while1, take_while1, t_step; [eexists; reflexivity|]. cbn in H. rewrite H. cbn [negb span fst length]. rewrite H. eexists. reflexivity. Qed.
Definition SK (i j : bytes) (c : nat) : Prop := t_skip_cfws i = (Ok j, c).
Lemma SK_post : forall i j c, SK i j c -> post 50 20 i j c.
Proof. intros i j c H. pose proof (s_skip i) as S. rewrite H in S. exact S. Qed.
Lemma SK_quiet : forall i j c, SK i j c -> quiet i -> j = i /\ c <= 12.
Proof. intros i j c H Q. pose proof (skip_quiet i Q) as S. rewrite H in S. exact S. Qed.
Lemma SK_stuck : forall i j c, SK i j c -> stuck i -> j = i.
Proof. intros i j c H Q. pose proof (stuck_skip i Q) as S. rewrite H in S. exact S. Qed.
(* either the blanks are skipped, or the parser crashes *)
Lemma skip_or : forall i, (exists j c, SK i j c) \/ exists x n, t_skip_cfws i = (Crash x, n).
Proof. intros i. pose proof (s_skip i) as S. unfold SK. destruct (t_skip_cfws i) as [[j|e|x] c]; cbn in S; [left; eauto|contradiction|right; eauto]. Qed.
Lemma spec_skip : forall A i (k : bytes -> timed (bytes * A)) (G : bytes -> A -> nat -> Prop) (B : nat -> Prop),
  (forall j c, SK i j c -> spec (fun r a n => G r a (c + n)) (fun n => B (c + n)) (k j)) -> spec G B (let+ j := t_skip_cfws i in k j).
Proof.
  intros A i k G B H. destruct (skip_or i) as [(j & c & S)|(x & n & S)]; [eapply spec_known; [exact S|exact (H j c S)]|]. rewrite S. exact I.
Qed.
Definition is_dot (c : byte) : bool := (c =? 46)%N.
Definition mute (i : bytes) : Prop := stops is_atext i /\ stops is_quote i.
Lemma stuck_mute : forall i, stuck i -> mute i.
Proof.
  intros i [(c & r & -> & H) _]. unfold is_lead, is_wsp, is_open in H. split; cbn; [|unfold is_quote; lia]. destruct (is_atext c) eqn:A; [|reflexivity]. apply atext_facts in A. lia.
Qed.
Lemma starts_quote : forall i, starts_with i [DQUOTE] = true -> begins is_quote i.
Proof. intros i H. apply starts_app in H. rewrite H. exists 34%N, (skipn 1 i). auto. Qed.
Lemma atom_miss : forall i j c, SK i j c -> stops is_atext j -> exists e, t_atom i = (Err e, c + 1).
Proof. intros i j c H S. unfold t_atom. rewrite H. destruct (take1_miss is_atext j S) as [e X]. cbn [t_bind]. rewrite X. eexists. reflexivity. Qed.
Lemma qs_miss : forall i j c, SK i j c -> stops is_quote j -> exists e, t_quoted_string i = (Err e, c + 2).
Proof.
  intros i j c H S. unfold t_quoted_string. rewrite H. cbn [t_bind]. unfold t_starts_with, t_step. destruct (starts_with j [DQUOTE]) eqn:Q; [exfalso; eapply begins_not; [apply starts_quote, Q|exact S]|].
  cbn [t_bind fst snd t_err length]. eexists. f_equal. 
Qed.
Lemma s_atom : forall i j c, SK i j c -> begins is_atext j -> exists a j1, t_take_while1 is_atext j = (Ok (j1, a), S (length a)) /\ ahead j j1 /\ stops is_atext j1 /\ length a + length j1 = length j /\ length a > 0 /\
  spec (fun r b n => b = a /\ exists c2, SK j1 r c2 /\ n = c + (S (length a) + c2)) (fun _ => False) (t_atom i).
Proof.
  intros i j c H B. destruct (take1_hit is_atext j atext_plain B) as (a & j1 & T & L). exists a, j1. split; [exact T|]. split; [apply L|]. split; [apply L|]. split; [apply L|]. split; [apply L|].
  unfold t_atom. eapply spec_known; [exact H|]. rewrite T. cbn beta. eapply spec_known; [reflexivity|]. cbn beta iota. apply spec_skip. intros r c2 S. apply spec_ok. split; [reflexivity|]. exists c2. split; [exact S|cbn [snd]; lia].
Qed.
Lemma begins_free : forall f i, begins f i -> (forall c, f c = true -> is_lead c = false) -> free i.
Proof. intros f i H X. eapply begins_stops; eassumption. Qed.
Lemma atext_lead : forall c, is_atext c = true -> is_lead c = false.
Proof. intros c H. apply atext_facts in H. unfold is_lead, is_wsp, is_open. lia. Qed.
Lemma quote_lead : forall c, is_quote c = true -> is_lead c = false.
Proof. intros c H. unfold is_quote in H. unfold is_lead, is_wsp, is_open. lia. Qed.
Lemma SK_free : forall i j c, SK i j c -> free j -> ahead i j /\ c + 50 * reach j <= 50 * reach i + 20.
Proof. intros i j c H F. apply SK_post in H. now apply post_free in H. Qed.
Lemma spec_true : forall A (x : timed (bytes * A)) (G : bytes -> A -> nat -> Prop) (B : nat -> Prop), (forall r a n, G r a n) -> (forall n, B n) -> spec G B x.
Proof. intros A [[[r a]|e|c] n] G B HG HB; cbn; auto. Qed.
Lemma qs_least : forall i j c, SK i j c -> spec (fun _ _ n => c <= n) (fun n => True) (t_quoted_string i).
Proof. intros i j c H. unfold t_quoted_string. eapply spec_known; [exact H|]. apply spec_true; intros; auto; lia. Qed.
Lemma post_double : forall K k i r n m q, post K k i r n -> m <= 2 * n + q -> post (2 * K) (2 * k + q) i r m.
Proof. intros K k i r n m q [H1 H2] H. split; [exact H1|]. destruct H2 as [H2|[H2 H3]]; [left; lia|right; split; [exact H2|lia]]. Qed.
Lemma spec_missed : forall A C (G : bytes -> C -> nat -> Prop) (B : nat -> Prop) (x : timed A) k f e n,
  x = (Err e, n) -> spec (fun r c m => G r c (n + m)) (fun m => B (n + m)) f -> spec G B (t_attempt x k f).
Proof. intros A C G B x k f e n -> H. cbn. destruct f as [[[r c]|e'|c] m]; exact H. Qed.
Lemma s_word : forall i, spec (fun r a n => post 200 161 i r n /\ reach r < reach i /\ length a + length r <= length i) (fun n => n <= 200 * reach i + 161) (t_word i).
Proof.
  intros i. unfold t_word. cbn [t_match_parsers]. destruct (skip_or i) as [(j & c & S)|(x & n & S)].
  2:{ unfold t_atom at 1. rewrite S. exact I. }
  destruct (stops_or is_atext j) as [A|A].
  - destruct (atom_miss i j c S A) as [e X]. pose proof (SK_post i j c S) as P. apply post_upto in P as [P1 P2]. eapply spec_missed; [exact X|]. cbn beta. eapply spec_attempt; [apply (spec_and _ _ _ _ _ _ (s_quoted_string i) (qs_least i j c S))| |]; cbn beta.
    + intros r a n ((H1 & H2 & H3) & H4). apply spec_ok. split; [|split; [ah|exact H3]]. apply (post_double 100 80 i r n); [exact H1|lia].
    + intros n [H _]. apply spec_err. lia.
  - destruct (s_atom i j c S A) as (a & j1 & T & L1 & L2 & L3 & L4 & H). eapply spec_attempt; [exact H| |intros n []]. cbn beta. intros r b n (-> & c2 & S2 & ->). apply spec_ok.
    destruct (SK_free i j c S (begins_free _ _ A atext_lead)) as [P1 P2]. apply SK_post in S2 as [Q1 Q2]. split; [|split; ah]. split; [ah|]. destruct Q2 as [Q2|[Q2 Q3]]; [left; ah|right; split; [exact Q2|ah]].
Qed.
Lemma word_miss : forall i j c, SK i j c -> mute j -> exists e, t_word i = (Err e, 2 * c + 3).
Proof.
  intros i j c H [S1 S2]. unfold t_word. cbn [t_match_parsers]. destruct (atom_miss i j c H S1) as [e X]. destruct (qs_miss i j c H S2) as [e' Y]. rewrite X. cbn [t_attempt]. rewrite Y. cbn. eexists. f_equal. lia.
Qed.
Lemma stuck_word : forall i, stuck i -> nope (t_word i).
Proof.
  intros i H. destruct (skip_or i) as [(j & c & S)|(x & n & S)].
  - pose proof (SK_stuck i j c S H). subst j. destruct (word_miss i i c S (stuck_mute i H)) as [e X]. rewrite X. exact I.
  - unfold t_word. cbn [t_match_parsers]. unfold t_atom at 1. rewrite S. exact I.
Qed.
(* one after the other *)
Lemma s_many1 : forall A K k D (p : timed_parser A) size, turns K k D p size -> forall i,
  spec (fun r l m => reach r < reach i /\ many_post K k D p size i r l m) (fun m => erred (p i) /\ m = snd (p i)) (t_many1 p i).
Proof.
  intros A K k D p size T i. unfold t_many1. eapply spec_bind with (B := fun m => erred (p i) /\ m = snd (p i)); [|auto|].
  { pose proof (T i) as H. destruct (p i) as [[[r a]|e|c] n]; cbn [spec] in *; [exact H|split; [exact I|reflexivity]|exact I]. }
  cbn beta. intros r a n (H1 & H2 & H3 & H4). destruct H4 as [H4|(H4 & H5 & H6)].
  - eapply spec_bind; [apply (s_many _ _ _ _ _ _ T)|intros m []|]. cbn beta. intros r' l m (K1 & K2 & K3 & K4 & K5). apply spec_ok. split; [ah|]. unfold many_post, list_sum in *. cbn [map fold_right length].
    split; [ah|]. split; [ah|]. split; [ah|]. split; [exact K4|]. destruct K5 as [K5|[K5 K6]]; [left; lia|right; split; [exact K5|lia]].
  - eapply spec_bind with (G := fun r' l m => r' = r /\ l = [] /\ m = 1 + snd (p r) /\ erred (p r)) (B := fun _ => False).
    { unfold t_many. cbn [t_many_fuel]. apply spec_turn. destruct (p r) as [[[r' b]|e|c] m]; cbn in *; [contradiction| |exact I]. repeat split. lia. }
    { intros m []. }
    cbn beta. intros r' l m (-> & -> & -> & Q). apply spec_ok. split; [exact H2|]. unfold many_post, list_sum. cbn [map fold_right length]. split; [exact H1|]. split; [ah|]. split; [ah|]. split; [exact Q|]. right. split; [exact H4|lia].
Qed.
Definition word_size (w : bytes) : nat := S (length w).
Lemma word_turns : turns 400 200 stuck t_word word_size.
Proof.
  intros i. eapply spec_weak; [apply s_word| |auto]. cbn beta. intros r a n (H1 & H2 & H3). destruct H1 as [H1 H4]. split; [exact H1|]. split; [exact H2|]. unfold word_size. split; [ah|]. destruct H4 as [H4|[H4 H5]]; [left; lia|].
  right. split; [exact H4|]. split; [now apply stuck_word|lia].
Qed.
Definition phrase_size (l : list bytes) : nat := list_sum (map word_size l).
Lemma s_phrase : forall i, spec (fun r l m => ahead i r /\ reach r < reach i /\ phrase_size l + 2 * length r <= 2 * length i /\ erred (t_word r) /\ post 400 202 i r (m - snd (t_word r)) /\ m <= 600 * reach i + 363)
  (fun m => erred (t_word i) /\ m = snd (t_word i)) (t_phrase i).
Proof.
  intros i. unfold t_phrase. eapply spec_weak; [apply (s_many1 _ _ _ _ _ _ word_turns)| |auto]. cbn beta. intros r l m (H0 & H1 & H2 & _ & H4 & H5). split; [exact H1|]. split; [exact H0|]. split; [exact H2|]. split; [exact H4|].
  apply (spec_erred _ _ _ _ (s_word r)) in H4. split; [split; [exact H1|]|]; (destruct H5 as [H5|[H5 H6]]); [left; lia|right; split; [exact H5|lia]|ah|ah].
Qed.
Lemma upto_phrase : forall i, upto 600 363 i (t_phrase i).
Proof. intros i. eapply spec_weak; [apply s_phrase| |]; cbn beta; [intros r l m (H1 & _ & _ & _ & _ & H); auto|]. intros m [H ->]. apply (spec_erred _ _ _ _ (s_word i)) in H. cbn beta in H. ah. Qed.
Lemma upto_word : forall i, upto 200 161 i (t_word i).
Proof. intros i. eapply spec_weak; [apply s_word| |auto]. cbn beta. intros r l m (H1 & _). now apply post_upto. Qed.
Lemma upto_qs : forall i, upto 100 80 i (t_quoted_string i).
Proof. intros i. eapply spec_weak; [apply s_quoted_string| |auto]. cbn beta. intros r l m (H1 & _). now apply post_upto. Qed.

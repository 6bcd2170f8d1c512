(* The work of the parsers of mailboxes, groups and lists of addresses. *)
From Coq Require Import Lia ZifyBool ZifyNat ZifyN.
From Verif Require Import Base Utf8 CharSets Combinators Whitespace QuotedString Common Time Address MimeFields Fields Message Email Timed Post TimedFacts TimedWords TimedAddr.

(* ---- what comes after a name that is none ---- *)
Definition is_at (c : byte) : bool := (c =? 64)%N.
Definition is_colon (c : byte) : bool := (c =? 58)%N.
Definition is_semi (c : byte) : bool := (c =? 59)%N.
Definition is_comma (c : byte) : bool := (c =? 44)%N.
Definition is_less (c : byte) : bool := (c =? 60)%N.
Definition hard (c : byte) : bool := is_at c || is_colon c || is_semi c || is_comma c || is_dot c.
Lemma hard_quiet : forall i, begins hard i -> quiet i /\ mute i /\ (forall t, i <> 60%N :: t) /\ free i.
Proof.
  intros i (c & r & -> & H). unfold hard, is_at, is_colon, is_semi, is_comma, is_dot in H. split; [|split; [|split]].
  - unfold quiet. cbn [stops]. unfold is_wsp, is_open. split; [lia|]. split; [lia|]. destruct (starts_with (c :: r) CRLF) eqn:X; [|reflexivity]. apply starts_app in X. cbn in X. injection X as -> _. lia.
  - split; cbn; [|unfold is_quote; lia]. destruct (is_atext c) eqn:A; [|reflexivity]. apply atext_facts in A. lia.
  - intros t X. injection X as -> ->. lia.
  - unfold free, is_lead, is_wsp, is_open. cbn. lia.
Qed.
Lemma hard_word : forall i, begins hard i -> spec (fun _ _ _ => False) (fun n => n <= 27) (t_word i).
Proof.
  intros i H. apply hard_quiet in H as (Q & M & _ & _). destruct (skip_or i) as [(j & c & S)|(x & m & S)]; [|unfold t_word; cbn [t_match_parsers]; unfold t_atom; rewrite S; exact I].
  destruct (SK_quiet _ _ _ S Q) as [-> C]. destruct (word_miss i i c S M) as [e X]. rewrite X. cbn. lia.
Qed.
Lemma angle_miss : forall E i j c, SK i j c -> (forall t, j <> 60%N :: t) -> exists e, t_angle_addr E i = (Err e, c + 2).
Proof.
  intros E i j c H N. unfold t_angle_addr. pose proof (s_optional_cfws i) as S. destruct (t_optional t_cfws i) as [[[r o]|e|x] n] eqn:O; cbn [spec] in S; [|contradiction|].
  - destruct S as [_ S]. unfold SK in H. rewrite H in S. injection S as -> ->. cbn [t_bind]. change (bs "<") with [60%N]. unfold t_tag, t_step, tag. destruct (starts_with r [60%N]) eqn:Q; [apply starts_char in Q as [t ->]; exfalso; now apply (N t)|]. cbn. eexists. f_equal.
  - exfalso. unfold SK, t_skip_cfws in H. unfold t_optional in O. destruct (t_cfws i) as [[[r o]|e|y] m]; cbn in *; discriminate.
Qed.
Lemma hard_angle : forall E i, begins hard i -> spec (fun _ _ _ => False) (fun n => n <= 14) (t_angle_addr E i).
Proof.
  intros E i H. apply hard_quiet in H as (Q & M & N & _). destruct (skip_or i) as [(j & c & S)|(x & m & S)].
  - destruct (SK_quiet _ _ _ S Q) as [-> C]. destruct (angle_miss E i i c S N) as [e X]. rewrite X. cbn. lia.
  - unfold t_angle_addr. apply spec_ocfws. intros j o c X. unfold SK in X. rewrite S in X. discriminate.
Qed.
(* a phrase of a single word *)
Lemma short_phrase : forall i r w m, t_word i = (Ok (r, w), m) -> begins hard r -> spec (fun r' l n => r' = r /\ n <= m + 28) (fun _ => False) (t_phrase i).
Proof.
  intros i r w m W H. unfold t_phrase, t_many1. eapply spec_known; [exact W|]. cbn beta iota. pose proof (hard_word r H) as X. eapply spec_bind; [apply many_nope; eapply spec_weak; [exact X| |]; cbn; auto|intros n []|]. cbn beta.
  intros r' l n (-> & -> & -> & Y). apply spec_ok. split; [reflexivity|]. apply (spec_erred _ _ _ _ X) in Y. cbn beta in Y. ah.
Qed.
(* a local part is a word, or starts with one *)
Lemma local_word : forall E i r l n, t_local_part E i = (Ok (r, l), n) -> spec (fun r' w m => m <= n + 12 /\ (r' = r \/ begins is_dot r')) (fun _ => False) (t_word i).
Proof.
  intros E i r l n H. unfold t_local_part in H. cbn [t_match_parsers] in H. unfold t_word. cbn [t_match_parsers]. destruct (t_dot_atom E i) as [[[r0 d]|e|x] m] eqn:D; [| |discriminate].
  - cbn in H. injection H as -> -> <-. apply dot_atom_atom in D as (D & _). eapply spec_attempt; [exact D| |intros q []]. cbn beta. intros r' w q (Q1 & Q2). apply spec_ok. split; [lia|tauto].
  - destruct (dot_err E i) as (j & c & S & N & A); [rewrite D; exact I|]. rewrite D in N. cbn [snd] in N. subst m. destruct (atom_miss i j c S A) as [e' X]. eapply spec_missed; [exact X|]. cbn beta.
    unfold t_attempt at 1 in H. destruct (t_quoted_string i) as [[[r1 q]|e1|x] m]; cbn in H; [|discriminate..]. injection H as -> -> <-. cbn. split; [lia|auto].
Qed.
Lemma hard_at : forall c, is_at c = true -> hard c = true.
Proof. intros c H. unfold hard. now rewrite H. Qed.
Lemma begins_hard : forall f i, begins f i -> (forall c, f c = true -> hard c = true) -> begins hard i.
Proof. intros f i (c & r & -> & H) X. exists c, r. auto. Qed.
Lemma hard_dot : forall c, is_dot c = true -> hard c = true.
Proof. intros c H. unfold hard. rewrite H. apply orb_true_r. Qed.
Lemma hard_colon : forall c, is_colon c = true -> hard c = true.
Proof. intros c H. unfold hard. rewrite H. now rewrite orb_true_r. Qed.
Lemma hard_semi : forall c, is_semi c = true -> hard c = true.
Proof. intros c H. unfold hard. rewrite H. now rewrite orb_true_r. Qed.
Lemma hard_comma : forall c, is_comma c = true -> hard c = true.
Proof. intros c H. unfold hard. rewrite H. now rewrite orb_true_r. Qed.
Lemma name_before_at : forall E i r l n, t_local_part E i = (Ok (r, l), n) -> begins is_at r -> spec (fun _ _ _ => False) (fun m => m <= n + 60) (t_name_addr E i).
Proof.
  intros E i r l n H A. pose proof (local_word E i r l n H) as W. unfold t_name_addr, t_optional.
  destruct (t_word i) as [[[r' w]|e|x] m] eqn:X; cbn [spec] in W; [|contradiction|unfold t_phrase, t_many1; rewrite X; exact I]. destruct W as [W1 W2].
  assert (Hh : begins hard r') by (destruct W2 as [->|W2]; [exact (begins_hard _ _ A hard_at)|exact (begins_hard _ _ W2 hard_dot)]).
  eapply spec_bind with (G := fun r'' _ q => r'' = r' /\ q <= m + 28) (B := fun _ => False).
  { eapply spec_attempt; [exact (short_phrase i r' w m X Hh)| |intros q []]. cbn beta. intros r'' l' q (-> & Q). apply spec_ok. split; [reflexivity|lia]. }
  { intros q []. }
  cbn beta. intros r'' o q (-> & Q). eapply spec_bind; [apply hard_angle; exact Hh| |intros ? ? ? []]. cbn beta. intros q' Q'. lia.
Qed.

(* ---- mailboxes ---- *)
Lemma s_name_addr : forall E i, spec (fun r a n => post 1000 1800 i r n /\ reach r < reach i /\ mailbox_size a + 2 * length r <= 2 * length i) (fun n => n <= 1100 * reach i + 800) (t_name_addr E i).
Proof.
  intros E i. unfold t_name_addr, t_optional. destruct (t_phrase i) as [[[r l]|e|x] n] eqn:P; [| |exact I]; pose proof (s_phrase i) as H; rewrite P in H; cbn [spec] in H.
  - destruct H as (H1 & H2 & H3 & H4 & H5 & H6). cbn [t_attempt t_ok fst snd]. eapply spec_known; [reflexivity|]. cbn beta iota. eapply spec_bind; [apply s_angle|cbn beta; intros m M; ah|]. cbn beta. intros r' a m (K1 & K2 & K3 & j & c & S & K4). apply spec_ok.
    assert (W : snd (t_word r) = 2 * c + 3) by (destruct (word_miss r _ c S) as [e X]; [split; reflexivity|rewrite X; reflexivity]).
    assert (F : free r \/ ~ stuck r) by (right; intros X; pose proof (SK_stuck _ _ _ S X) as Y; destruct X as [X _]; rewrite <- Y in X; eapply begins_not; [exact X|reflexivity]).
    destruct H5 as [_ H5]. destruct H5 as [H5|[H5 _]]; [|exfalso; destruct F as [F|F]; [eapply free_stuck; eassumption|contradiction]]. destruct K1 as [K1 K5].
    split; [split; [ah|destruct K5 as [K5|[K5 K6]]; [left; ah|right; split; [exact K5|ah]]]|]. split; [ah|]. unfold mailbox_size. cbn [m_name m_address]. unfold phrase_size, word_size in H3. unfold addr_size in K3. ah.
  - destruct H as [H ->]. cbn [t_attempt t_ok fst snd]. eapply spec_known; [reflexivity|]. cbn beta iota. apply (spec_erred _ _ _ _ (s_word i)) in H as H'. cbn beta in H'. eapply spec_bind; [apply s_angle|cbn beta; intros m M; ah|]. cbn beta. intros r' a m (K1 & K2 & K3 & j & c & S & K4). apply spec_ok.
    assert (W : snd (t_word i) = 2 * c + 3) by (destruct (word_miss i _ c S) as [e' X]; [split; reflexivity|rewrite X; reflexivity]). rewrite W. destruct K1 as [K1 K5].
    split; [split; [ah|destruct K5 as [K5|[K5 K6]]; [left; ah|right; split; [exact K5|ah]]]|]. split; [ah|]. unfold mailbox_size. cbn [m_name m_address]. unfold addr_size in K3. ah.
Qed.
Lemma s_mailbox : forall E i, spec (fun r a n => post 1000 1800 i r n /\ reach r < reach i /\ mailbox_size a + 2 * length r <= 2 * length i) (fun n => n <= 1500 * reach i + 1200) (t_mailbox E i).
Proof.
  intros E i. unfold t_mailbox. cbn [t_match_parsers]. pose proof (s_name_addr E i) as H. destruct (t_name_addr E i) as [[[r l]|e|x] n] eqn:P; cbn [spec] in H; [| |exact I].
  - cbn. rewrite Nat.add_0_r. exact H.
  - eapply spec_missed; [reflexivity|]. cbn beta. unfold t_pmap. eapply spec_attempt with (B := fun m => m <= 400 * reach i + 330); [| |cbn beta; intros m M; apply spec_err; lia].
    + eapply spec_bind with (G := fun r a m => post 400 720 i r (n + m) /\ reach r < reach i /\ addr_size a + length r <= length i) (B := fun m => m <= 400 * reach i + 330); [|auto|].
      * unfold t_addr_spec. change (bs "@") with [64%N]. pose proof (s_local E i) as L. destruct (t_local_part E i) as [[[r1 l]|e1|x] m1] eqn:LP; cbn [spec] in L; [|cbn; lia|exact I]. destruct L as (L1 & L2 & L3). apply post_upto in L1 as L4. destruct L4 as [L4 L5].
        eapply spec_known; [reflexivity|]. cbn beta iota. eapply spec_bind; [apply s_char; lia|intros m ->; lia|]. cbn beta. intros r2 [] m (-> & K1 & K2 & ->).
        assert (N : n <= m1 + 60) by (pose proof (name_before_at E i _ l m1 LP) as X; rewrite P in X; cbn [spec] in X; apply X; exists 64%N, r2; auto).
        apply post_free in L1 as [_ L1]; [|reflexivity]. eapply spec_bind; [apply s_domain|cbn beta; intros m H'; ah|]. cbn beta. intros r3 d m (M1 & M2 & M3). apply spec_ok. destruct M1 as [M1 M4]. unfold addr_size. cbn [a_local_part a_domain length] in *.
        split; [split; [ah|]|split; ah]. destruct M4 as [M4|[M4 M5]]; [left; ah|right; split; [exact M4|ah]].
      * cbn beta. intros r a m (H1 & H2 & H3). apply spec_ok. instantiate (1 := fun r a m => post 400 720 i r (n + m) /\ reach r < reach i /\ addr_size (m_address a) + length r <= length i /\ m_name a = None). cbn beta. rewrite Nat.add_0_r. cbn. auto.
    + cbn beta. intros r a m (H1 & H2 & H3 & H4). apply spec_ok. rewrite Nat.add_0_r. split; [eapply post_weak; [exact H1|lia|lia]|]. split; [exact H2|]. unfold mailbox_size. rewrite H4. unfold addr_size in H3. ah.
Qed.
Lemma upto_mailbox : forall E i, upto 1500 1800 i (t_mailbox E i).
Proof. intros E i. eapply spec_weak; [apply s_mailbox| |]; cbn beta; [intros r a n (H & _); apply post_upto in H; split; [apply H|lia]|intros; lia]. Qed.

(* ---- lists ---- *)
Definition items {A} (K k : nat) (p : timed_parser A) (size : A -> nat) : Prop := forall i,
  spec (fun r a n => post K k i r n /\ reach r < reach i /\ size a + 2 * length r <= 2 * length i) (fun _ => True) (p i).
Lemma prefixed_none : forall A (p : timed_parser A) i, stops is_comma i -> exists e, t_prefixed p (bs ",") i = (Err e, 2).
Proof.
  intros A p i H. unfold t_prefixed, t_starts_with, t_step. change (bs ",") with [44%N]. destruct (starts_with i [44%N]) eqn:X; [apply starts_char in X as [r ->]; discriminate|]. cbn. eexists. reflexivity.
Qed.
Lemma spec_prefixed : forall A (p : timed_parser A) i (G : bytes -> A -> nat -> Prop) (B : nat -> Prop),
  (forall j, i = 44%N :: j -> spec (fun r a n => G r a (2 + n)) (fun n => B (2 + n)) (p j)) -> (stops is_comma i -> B 2) -> spec G B (t_prefixed p (bs ",") i).
Proof.
  intros A p i G B H1 H2. destruct (stops_or is_comma i) as [S|S]; [destruct (prefixed_none A p i S) as [e X]; rewrite X; exact (H2 S)|].
  destruct S as (c & j & -> & S). unfold is_comma in S. apply N.eqb_eq in S. subst c. specialize (H1 j eq_refl). unfold t_prefixed, t_starts_with, t_step. change (bs ",") with [44%N].
  destruct (starts_with (44%N :: j) [44%N]) eqn:X; [|destruct j; discriminate]. unfold t_bind. cbn. destruct (p j) as [[[r a]|e|x] n]; exact H1.
Qed.
Lemma stuck_prefixed : forall A (p : timed_parser A) i, stuck i -> nope (t_prefixed p (bs ",") i).
Proof. intros A p i [H _]. destruct (prefixed_none A p i) as [e X]; [|rewrite X; exact I]. eapply begins_stops; [exact H|]. unfold is_lead, is_wsp, is_open, is_comma. lia. Qed.
Lemma prefixed_turns : forall A K k (p : timed_parser A) size, items K k p size -> turns (K + k + 3) (k + 2) stuck (t_prefixed p (bs ",")) size.
Proof.
  intros A K k p size H i. apply spec_prefixed; [|auto]. intros j ->. pose proof (ahead_cons 44%N j ltac:(lia)) as L1. pose proof (reach_cons 44%N j ltac:(lia)) as L2. eapply spec_weak; [apply H| |auto]. cbn beta. intros r a n ([H1 H2] & H3 & H4).
  cbn [length] in *. split; [ah|]. split; [ah|]. split; [ah|]. pose proof (mono (k + 3) (reach r) (reach j) ltac:(ah)). destruct H2 as [H2|[H2 H5]]; [left; lia|right]. split; [exact H2|]. split; [now apply stuck_prefixed|lia].
Qed.
Lemma upto_prefixed : forall A K k (p : timed_parser A) i, (forall j, upto K k j (p j)) -> upto K (k + 2) i (t_prefixed p (bs ",") i).
Proof.
  intros A K k p i H. apply spec_prefixed; [|intros; lia]. intros j ->. pose proof (ahead_cons 44%N j ltac:(lia)) as L1. pose proof (mono K (reach j) (reach (44%N :: j)) ltac:(ah)). eapply spec_weak; [apply H| |]; cbn beta; [intros r a n [H1 H2]; split; [ah|lia]|intros; lia].
Qed.
Definition list_post {A} (K k K' k' : nat) (size : A -> nat) (i r : bytes) (l : list A) (n : nat) : Prop :=
  ahead i r /\ reach r < reach i /\ list_sum (map size l) + 2 * length r <= 2 * length i /\ length l + length r <= length i /\
  (free r -> stops is_comma r -> n + (K + k + 3) * reach r <= (K + k + 3) * reach i + k + 3) /\ n <= (K + (K + k + 3) + K') * reach i + (2 * k + k' + 8).
Lemma s_list : forall A K k (p : timed_parser A) size K' k', items K k p size -> (forall j, upto K' k' j (p j)) -> forall i,
  spec (fun r l n => list_post K k K' k' size i r l n) (fun n => erred (p i) /\ n = snd (p i)) (let+ (i, m) := p i in let+ (i, l) := t_many (t_prefixed p (bs ",")) i in t_ok (i, m :: l)).
Proof.
  intros A K k p size K' k' Hi Hu i. eapply spec_bind with (B := fun n => erred (p i) /\ n = snd (p i)); [|auto|].
  { pose proof (Hi i) as H. destruct (p i) as [[[r a]|e|c] n]; cbn [spec] in *; [exact H|split; [exact I|reflexivity]|exact I]. }
  cbn beta. intros r1 a n ([H1 H2] & H3 & H4). pose proof (prefixed_turns A K k p size Hi) as T. destruct H2 as [H2|[H2 H5]].
  - eapply spec_bind; [apply (s_many _ _ _ _ _ _ T)|intros m []|]. cbn beta. intros r l m (K1 & K2 & K3 & K4 & K5). apply spec_ok. unfold list_post, list_sum in *. cbn [map fold_right length].
    split; [ah|]. split; [ah|]. split; [ah|]. split; [ah|]. pose proof (mono (k + 3) (reach r1) (reach i) ltac:(ah)). split.
    + intros F C. destruct (prefixed_none A p r C) as [e X]. rewrite X in K5. cbn [snd] in K5. destruct K5 as [K5|[K5 _]]; [lia|]. exfalso. eapply free_stuck; eassumption.
    + apply (spec_erred _ _ _ _ (upto_prefixed A K' k' p r Hu)) in K4. pose proof (mono K' (reach r) (reach i) ltac:(ah)). pose proof (mono K (reach r1) (reach i) ltac:(ah)). destruct K5 as [K5|[_ K5]]; lia.
  - eapply spec_bind; [apply many_nope; now apply stuck_prefixed|intros m []|]. cbn beta. intros r l m (-> & -> & -> & Y). apply spec_ok. unfold list_post, list_sum in *. cbn [map fold_right length].
    split; [ah|]. split; [ah|]. split; [ah|]. split; [ah|]. split; [intros F; exfalso; eapply free_stuck; eassumption|]. apply (spec_erred _ _ _ _ (upto_prefixed A K' k' p r1 Hu)) in Y. pose proof (mono K' (reach r1) (reach i) ltac:(ah)). lia.
Qed.
Lemma mailbox_items : forall E, items 1000 1800 (t_mailbox E) mailbox_size.
Proof. intros E i. eapply spec_weak; [apply s_mailbox| |]; auto. Qed.
Lemma s_mailbox_list : forall E i, spec (fun r l n => list_post 1000 1800 1500 1800 mailbox_size i r l n) (fun n => erred (t_mailbox E i) /\ n = snd (t_mailbox E i)) (t_mailbox_list E i).
Proof. intros E i. exact (s_list _ _ _ _ _ _ _ (mailbox_items E) (upto_mailbox E) i). Qed.
Lemma upto_list : forall A K k K' k' size i (x : timed (bytes * list A)) (p : timed_parser A), spec (fun r l n => list_post K k K' k' size i r l n) (fun n => erred (p i) /\ n = snd (p i)) x -> upto K' k' i (p i) ->
  upto (K + (K + k + 3) + K') (2 * k + k' + 8) i x.
Proof.
  intros A K k K' k' size i x p H Hp. eapply spec_weak; [exact H| |]; cbn beta; [intros r l n (H1 & _ & _ & _ & _ & H2); split; [exact H1|lia]|]. intros n [H1 ->]. apply (spec_erred _ _ _ _ Hp) in H1. cbn beta in H1. lia.
Qed.
Lemma upto_mailbox_list : forall E i, upto (6 * 1000) (6 * 1000) i (t_mailbox_list E i).
Proof. intros E i. eapply upto_weak; [exact (upto_list _ _ _ _ _ _ i _ _ (s_mailbox_list E i) (upto_mailbox E i))|lia|lia]. Qed.

(* ---- groups ---- *)
Lemma mailbox_miss : forall E i j c, SK i j c -> mute j -> (forall t, j <> 60%N :: t) -> exists e, t_mailbox E i = (Err e, 5 * c + 8).
Proof.
  intros E i j c S M N. destruct (word_miss i j c S M) as [e1 W]. destruct (angle_miss E i j c S N) as [e2 A]. destruct (dot_atom_miss E i j c S (proj1 M)) as [e3 D]. destruct (qs_miss i j c S (proj2 M)) as [e4 Q].
  unfold t_mailbox. cbn [t_match_parsers]. unfold t_name_addr at 1, t_optional, t_phrase, t_many1. rewrite W. cbn [t_bind t_attempt t_ok fst snd]. rewrite A. cbn [t_bind t_attempt fst snd]. unfold t_pmap, t_addr_spec, t_local_part. cbn [t_match_parsers]. rewrite D. cbn [t_attempt fst snd]. rewrite Q. cbn [t_attempt t_bind t_err fst snd]. eexists. f_equal. lia.
Qed.
Lemma begins_char : forall c r f, f c = true -> begins f (c :: r).
Proof. intros c r f H. exists c, r. auto. Qed.
Definition ends_well (i1 r1 : bytes) (n1 : nat) : Prop := ahead i1 r1 /\ (begins is_semi r1 -> n1 + 2803 * reach r1 <= 2803 * reach i1 + 2000) /\ n1 <= (6 * 1000) * reach i1 + 6 * 1000.
Lemma s_members : forall E i, spec (fun r l n => ends_well i r n) (fun _ => False) (t_attempt (t_mailbox_list E i) (fun ra => t_ok ra) (t_attempt (t_cfws i) (fun '(i', _) => t_ok (i', [])) (t_ok (i, [])))).
Proof.
  intros E i. eapply spec_attempt; [apply s_mailbox_list| |]; cbn beta.
  - intros r l n (H1 & H2 & H3 & H4 & H5 & H6). apply spec_ok. split; [exact H1|]. rewrite Nat.add_0_r. split; [|lia]. intros S. assert (F : free r) by (apply hard_quiet; exact (begins_hard _ _ S hard_semi)). specialize (H5 F). assert (C : stops is_comma r) by (eapply begins_stops; [exact S|unfold is_semi, is_comma; lia]). specialize (H5 C). lia.
  - intros n [H ->]. assert (X : forall j c, SK i j c -> ends_well i j (snd (t_mailbox E i) + c)).
    { intros j c S. apply SK_post in S as P. apply post_upto in P as P'. destruct P' as [P1 P2]. split; [exact P1|]. apply (spec_erred _ _ _ _ (upto_mailbox E i)) in H as H'. cbn beta in H'. split; [|lia]. intros B. apply (begins_hard _ _) in B; [|exact hard_semi]. apply hard_quiet in B as (B1 & B2 & B3 & B4).
      destruct (mailbox_miss E i j c S B2 B3) as [e Y]. apply post_free in P as [_ P]; [|exact B4]. rewrite Y. cbn [snd]. ah. }
    unfold SK, t_skip_cfws in X. destruct (t_cfws i) as [[[r a]|e|x] n]; cbn [t_attempt t_ok fst snd spec]; [exact (X r _ eq_refl)|exact (X i _ eq_refl)|exact I].
Qed.
Lemma s_group : forall E i, spec (fun r g n => post 2803 2400 i r n /\ reach r < reach i /\ exists r0 l q, t_phrase i = (Ok (r0, l), q) /\ begins is_colon r0 /\ q <= n) (fun n => n <= (7 * 1000) * reach i + 7 * 1000) (t_group E i).
Proof.
  intros E i. unfold t_group. change (bs ":") with [58%N]. change (bs ";") with [59%N]. pose proof (upto_phrase i) as U. pose proof (s_phrase i) as P. destruct (t_phrase i) as [[[r0 l]|e|x] q] eqn:Ph; cbn [spec upto] in *; unfold upto, spec in U; [|cbn [t_bind spec]; lia|exact I]. destruct U as [_ U].
  eapply spec_known; [reflexivity|]. cbn beta iota. eapply spec_bind; [apply s_char; lia|intros n ->; lia|]. cbn beta. intros r1 [] n (-> & A1 & A2 & ->).
  assert (B : begins is_colon (58%N :: r1)) by (now apply begins_char). assert (Bh : begins hard (58%N :: r1)) by exact (begins_hard _ _ B hard_colon). assert (P' : q + 400 * reach (58%N :: r1) <= 400 * reach i + 229 /\ ahead i (58%N :: r1)).
  { destruct P as (P1 & P2 & P3 & P4 & P5 & P6). apply (spec_erred _ _ _ _ (hard_word _ Bh)) in P4. cbn beta in P4. apply post_free in P5 as [_ P5]; [|now apply hard_quiet]. split; [ah|exact P1]. }
  destruct P' as [P1 P2]. clear P. eapply spec_bind; [apply s_members|intros n []|]. cbn beta. intros r2 ms n (M1 & M2 & M3). eapply spec_bind; [apply s_char; lia|intros m ->; ah|]. cbn beta. intros r3 [] m (-> & N1 & N2 & ->). specialize (M2 (begins_char 59%N r3 is_semi eq_refl)).
  apply spec_ocfws. intros r4 _ c4 S4. apply SK_post in S4 as [Q1 Q2]. apply spec_ok. split; [split; [ah|destruct Q2 as [Q2|[Q2 Q3]]; [left; ah|right; split; [exact Q2|ah]]]|]. split; [ah|]. exists (58%N :: r1), l, q. split; [reflexivity|]. split; [exact B|lia].
Qed.
(* before a colon there is no mailbox, and one knows soon *)
Lemma mailbox_before_colon : forall E i r l q, t_phrase i = (Ok (r, l), q) -> begins is_colon r -> spec (fun _ _ _ => False) (fun m => m <= 3 * q + 60) (t_mailbox E i).
Proof.
  intros E i r l q P C. assert (Ch : begins hard r) by exact (begins_hard _ _ C hard_colon). unfold t_mailbox. cbn [t_match_parsers]. eapply spec_attempt with (G := fun _ _ _ => False) (B := fun n => n <= q + 14); [|intros ? ? ? []|].
  { unfold t_name_addr, t_optional. rewrite P. cbn [t_attempt t_ok fst snd]. eapply spec_known; [reflexivity|]. cbn beta iota. eapply spec_bind; [apply hard_angle; exact Ch|cbn beta; intros; lia|intros ? ? ? []]. }
  cbn beta. intros n Hn. eapply spec_attempt with (G := fun _ _ _ => False) (B := fun n => n <= 2 * q + 10); [|intros ? ? ? []|cbn beta; intros m Hm; apply spec_err; lia].
  unfold t_pmap. eapply spec_bind with (G := fun _ _ _ => False) (B := fun n => n <= 2 * q + 10); [|auto|intros ? ? ? []]. unfold t_addr_spec. change (bs "@") with [64%N].
  (* the first word, and what is behind it *)
  unfold t_phrase, t_many1 in P. destruct (t_word i) as [[[r' w]|e|x] nw] eqn:W; [|discriminate..]. assert (Pq : nw <= q) by (cbn in P; injection P as _ P; lia).
  assert (Ph : begins hard r' -> r = r').
  { intros Hh. pose proof (hard_word r' Hh) as X. assert (Y : nope (t_word r')) by (eapply spec_weak; [exact X| |]; cbn; auto). apply many_nope in Y. unfold t_bind at 1 in P. cbn [fst snd] in P. destruct (t_many t_word r') as [[[r2 l2]|e|x] m]; cbn in P, Y; [|discriminate..]. injection P as <- _ _. apply Y. }
  destruct (skip_or i) as [(j & c & S)|(x & m & S)]; [|unfold t_word in W; cbn [t_match_parsers] in W; unfold t_atom at 1 in W; rewrite S in W; discriminate].
  eapply spec_bind with (G := fun r2 _ m => r2 = r' /\ m <= 2 * q + 8) (B := fun _ => False); [|intros ? []|].
  - unfold t_local_part. cbn [t_match_parsers]. unfold t_word in W. cbn [t_match_parsers] in W. destruct (stops_or is_atext j) as [A|A].
    + destruct (atom_miss i j c S A) as [e X]. destruct (dot_atom_miss E i j c S A) as [e' Y]. rewrite X in W. eapply spec_missed; [exact Y|]. cbn beta. cbn [t_attempt] in W.
      destruct (t_quoted_string i) as [[[r1 a]|e1|x] m]; cbn in W; [|discriminate..]. injection W as -> _ <-. cbn. split; [reflexivity|lia].
    + destruct (s_atom i j c S A) as (a & j1 & T & L1 & L2 & L3 & L4 & Hm). destruct (t_atom i) as [[[r1 b]|e|x] m]; cbn [spec] in Hm; cbn in W; [injection W as -> _ <-|contradiction|discriminate]. destruct Hm as (-> & c2 & S2 & ->).
      eapply spec_attempt; [apply (s_dot_atom E i j c j1 a S T A L1 L3 L4)| |intros ? []]. cbn beta. intros r2 d m (D1 & D2 & D3 & D4). apply spec_ok. destruct D4 as [(-> & c3 & S3 & D4)|(D4 & _)].
      * unfold SK in S2, S3. rewrite S2 in S3. injection S3 as -> ->. split; [reflexivity|lia].
      * exfalso. destruct (dot_quiet j1 D4) as [Q _]. destruct (SK_quiet _ _ _ S2 Q) as [-> _]. specialize (Ph (begins_hard _ _ D4 hard_dot)). subst r. eapply begins_not; [exact C|]. eapply begins_stops; [exact D4|]. unfold is_dot, is_colon. lia.
  - cbn beta. intros r2 a m (-> & Hm). eapply spec_bind; [apply s_char; lia|intros k ->; lia|]. cbn beta. intros r3 [] k (-> & _). exfalso. specialize (Ph (begins_char 64%N r3 hard eq_refl)). subst r. eapply begins_not; [exact C|reflexivity].
Qed.
Lemma s_address : exists K k, forall E, items K k (t_address E) (fun _ => 0) /\ forall i, upto K k i (t_address E i).
Proof.
  exists (4 * 2803), (4 * 2400 + 60). intros E. assert (H : forall i, spec (fun r a n => post (4 * 2803) (4 * 2400 + 60) i r n /\ reach r < reach i) (fun n => n <= 4 * 2803 * reach i + (4 * 2400 + 60)) (t_address E i)).
  { intros i. unfold t_address. pose proof (s_mailbox E i) as M. destruct (t_mailbox E i) as [[[r m]|e|x] n] eqn:MB; cbn [spec] in M; [| |exact I].
    - cbn [t_attempt t_ok fst snd spec]. rewrite Nat.add_0_r. destruct M as (M1 & M2 & _). split; [eapply post_weak; [exact M1|lia|lia]|exact M2].
    - eapply spec_missed; [reflexivity|]. cbn beta. eapply spec_attempt; [apply s_group| |cbn beta; intros m H; apply spec_err; lia]. cbn beta. intros r g m (G1 & G2 & r0 & l & q & G3 & G4 & G5). apply spec_ok.
      pose proof (mailbox_before_colon E i r0 l q G3 G4) as X. rewrite MB in X. cbn [spec] in X. split; [|exact G2]. destruct G1 as [G1 G6]. split; [exact G1|]. destruct G6 as [G6|[G6 G7]]; [left; lia|right; split; [exact G6|lia]]. }
  split; intros i; (eapply spec_weak; [apply H| |]); cbn beta; auto; intros r a n (H1 & H2); [|now apply post_upto in H1]. split; [exact H1|]. split; [exact H2|]. destruct H1 as [H1 _]. ah.
Qed.
Lemma upto_address_list : exists K k, forall E i, upto K k i (t_address_list E i).
Proof.
  destruct s_address as (K & k & H). do 2 eexists. intros E i. destruct (H E) as [H1 H2]. exact (upto_list _ _ _ _ _ _ i _ _ (s_list _ _ _ _ _ _ _ H1 H2 i) (H2 i)).
Qed.

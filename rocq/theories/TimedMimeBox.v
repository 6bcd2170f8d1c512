(* The work of mailboxes, lists and groups with encoded words. *)
From Coq Require Import Lia ZifyBool ZifyNat ZifyN.
From Verif Require Import Base Utf8 CharSets Combinators Whitespace QuotedString EncodedWord Common Time Address MimeFields Fields Message Entity Email Rfc5322 Post Timed TimedErase TimedCodec TimedMime TimedFacts TimedWords TimedAddr TimedBox TimedVals TimedMimeFacts.
Local Open Scope nat_scope.

(* success is paid by the text passed, w for each byte of it; failure costs W *)
Definition pays {A} (w W : nat -> nat) (c : nat) (i : bytes) (x : timed (bytes * A)) : Prop :=
  spec (fun r a n => ahead i r /\ reach r < reach i /\ n <= c * (w (reach i) * (reach i - reach r))) (fun n => n <= c * W (reach i)) x.
Lemma pays_win : forall A w W c i (x : timed (bytes * A)), spec (fun r a n => ahead i r /\ reach r < reach i /\ n <= c * w (reach i)) (fun n => n <= c * W (reach i)) x -> pays w W c i x.
Proof.
  intros A w W c i x H. eapply spec_weak; [exact H| |auto]; cbn beta. intros r a n (H1 & H2 & H3). split; [exact H1|]. split; [exact H2|]. assert (X : w (reach i) * 1 <= w (reach i) * (reach i - reach r)) by (apply mono; lia). pose proof (mono c _ _ X). lia.
Qed.
Lemma pays_more : forall A w W c c' i (x : timed (bytes * A)), pays w W c i x -> c <= c' -> pays w W c' i x.
Proof.
  intros A w W c c' i x H L. eapply spec_weak; [exact H| |]; cbn beta; [intros r a n (H1 & H2 & H3); split; [exact H1|]; split; [exact H2|]|intros n Hn].
  - pose proof (Nat.mul_le_mono_r c c' (w (reach i) * (reach i - reach r)) L). lia.
  - pose proof (Nat.mul_le_mono_r c c' (W (reach i)) L). lia.
Qed.
Lemma pays_fail : forall A w W W' c i (x : timed (bytes * A)), pays w W c i x -> (forall a, W a <= W' a) -> pays w W' c i x.
Proof. intros A w W W' c i x H L. eapply spec_weak; [exact H|auto|]. cbn beta. intros n Hn. pose proof (mono c _ _ (L (reach i))). lia. Qed.
Definition many_pays (w W : nat -> nat) (c : nat) (i r : bytes) (m : nat) : Prop := ahead i r /\ m <= S c * (w (reach i) * (reach i - reach r)) + c * W (reach i) + 1.
Lemma many_paid : forall A w W c (p : timed_parser A), weighty w -> weighty W -> (forall i, pays w W c i (p i)) -> forall n i, spec (fun r l m => many_pays w W c i r m /\ length l + length r <= length i) (fun _ => False) (t_many_fuel n p i).
Proof.
  intros A w W c p [Hw H1w] [HW _] Hp. induction n as [|n IH]; intros i; [exact I|]. cbn [t_many_fuel]. apply spec_turn. eapply spec_attempt; [apply Hp| |]; cbn beta.
  - intros j a m (H1 & H2 & H3). eapply spec_bind; [apply IH|intros q []|]. cbn beta. intros r l q ((I1 & I2) & I3). apply spec_ok. split; [|cbn [length]; ah]. split; [ah|].
    assert (X : w (reach j) * (reach j - reach r) <= w (reach i) * (reach j - reach r)) by (apply Nat.mul_le_mono_r, Hw; lia).
    assert (Y : w (reach i) * (reach i - reach j) + w (reach i) * (reach j - reach r) = w (reach i) * (reach i - reach r)) by (rewrite <- Nat.mul_add_distr_l; f_equal; ah).
    pose proof (mono (S c) _ _ X) as X'. pose proof (mono c _ _ (HW (reach j) (reach i) ltac:(lia))) as Z.
    assert (O : 1 <= w (reach i) * (reach i - reach j)) by (specialize (H1w (reach i)); assert (1 * 1 <= w (reach i) * (reach i - reach j)) by (apply Nat.mul_le_mono; lia); lia).
    rewrite <- Y. clear Y X. set (a1 := w (reach i) * (reach i - reach j)) in *. set (a2 := w (reach i) * (reach j - reach r)) in *. set (a3 := w (reach j) * _) in *. clearbody a1 a2 a3. lia.
  - intros m L. apply spec_ok. split; [split; [apply ahead_refl|lia]|cbn; lia].
Qed.
(* the same as a bound on the whole work, one degree higher *)
Lemma win_many : forall A w W c (p : timed_parser A) i, weighty w -> weighty W -> (forall x, S x * w x <= W x) -> (forall i, pays w W c i (p i)) -> win W (2 * c + 2) i (t_many p i).
Proof.
  intros A w W c p i H1 H2 H3 Hp. eapply spec_weak; [exact (many_paid A w W c p H1 H2 Hp _ i)| |intros n []]. cbn beta. intros r l m ((K1 & K2) & _). split; [exact K1|].
  specialize (H3 (reach i)). assert (w (reach i) * (reach i - reach r) <= W (reach i)) by (assert (w (reach i) * (reach i - reach r) <= w (reach i) * S (reach i)) by (apply mono; lia); lia). pose proof (mono (S c) _ _ H). destruct H2 as [_ H2]. specialize (H2 (reach i)). lia.
Qed.
Lemma pays_prefixed : forall A w W c (p : timed_parser A) i, weighty w -> weighty W -> (forall i, pays w W c i (p i)) -> pays w W (c + 2) i (t_prefixed p (bs ",") i).
Proof.
  intros A w W c p i [Hw Hw1] [HW HW1] Hp. apply spec_prefixed; [|intros _; specialize (HW1 (reach i)); nia]. intros j ->. pose proof (ahead_cons 44%N j ltac:(lia)) as L1. pose proof (reach_cons 44%N j ltac:(lia)) as L2. set (i := 44%N :: j) in *.
  eapply spec_weak; [apply Hp| |]; cbn beta.
  - intros r a n (H1 & H2 & H3). split; [ah|]. split; [ah|]. assert (X : w (reach j) * (reach j - reach r) <= w (reach i) * (reach i - reach r)) by (apply Nat.mul_le_mono; [apply Hw; lia|lia]). pose proof (mono c _ _ X).
    assert (1 * 1 <= w (reach i) * (reach i - reach r)) by (apply Nat.mul_le_mono; [specialize (Hw1 (reach i)); lia|ah]). lia.
  - intros n H. pose proof (mono c _ _ (HW (reach j) (reach i) ltac:(lia))). specialize (HW1 (reach i)). lia.
Qed.
Lemma square_up : forall x, S x <= w2 x.
Proof. intros. apply weighty2. Qed.

(* ---- mailboxes ---- *)
Definition box_post {A} (c : nat) (size : A -> nat) (i : bytes) (x : timed (bytes * A)) : Prop :=
  spec (fun r a n => ahead i r /\ reach r < reach i /\ size a + 21 * length r <= 21 * length i /\ n <= c * w2 (reach i)) (fun n => n <= c * w2 (reach i)) x.
Lemma m_name_addr_cost : forall E i, sized_env E -> box_post 3000 mailbox_size i (m_name_addr E i).
Proof.
  intros E i HE. unfold m_name_addr, box_post. pose proof (square_up (reach i)) as Q.
  eapply spec_bind with (G := fun r o n => ahead i r /\ match o with Some l => list_sum (map (fun w => S (length w)) l) | None => 0 end + 21 * length r <= 21 * length i /\ n <= 2000 * w2 (reach i)) (B := fun _ => False); [|intros n []|].
  - unfold t_optional. eapply spec_attempt; [apply s_phrase_m; exact HE| |]; cbn beta.
    + intros r l n (H1 & H2 & H3 & H4). apply spec_ok. split; [exact H1|]. split; [exact H3|lia].
    + intros n H. apply spec_ok. split; [apply ahead_refl|]. split; lia.
  - cbn beta. intros r o n (H1 & H2 & H3). eapply spec_bind; [apply s_angle|cbn beta; intros m M; ah|]. cbn beta. intros r' a m (K1 & K2 & K3 & _). apply post_upto in K1 as [K1 K4]. apply spec_ok.
    split; [ah|]. split; [ah|]. split; [unfold mailbox_size, addr_size in *; cbn [m_name m_address]; ah|ah].
Qed.
Lemma m_mailbox_cost : forall E i, sized_env E -> box_post 4000 mailbox_size i (m_mailbox E i).
Proof.
  intros E i HE. unfold m_mailbox, box_post. cbn [t_match_parsers]. pose proof (square_up (reach i)) as Q. eapply spec_attempt; [apply m_name_addr_cost; exact HE| |]; cbn beta.
  - intros r a n (H1 & H2 & H3 & H4). apply spec_ok. split; [exact H1|]. split; [exact H2|]. split; [exact H3|lia].
  - intros n N. unfold t_pmap. eapply spec_attempt with (B := fun m => m <= 400 * reach i + 330); [| |cbn beta; intros m M; apply spec_err; lia].
    + eapply spec_bind; [apply s_addr_spec|auto|]. cbn beta. intros r a m (H1 & H2 & H3). apply post_upto in H1 as [H1 H4]. apply spec_ok. instantiate (1 := fun r a m => ahead i r /\ reach r < reach i /\ mailbox_size a + 21 * length r <= 21 * length i /\ n + m <= 4000 * w2 (reach i)). cbn beta.
      split; [exact H1|]. split; [exact H2|]. split; [unfold mailbox_size, addr_size in *; cbn [m_name m_address]; ah|]. lia.
    + cbn beta. intros r a m H. apply spec_ok. rewrite Nat.add_0_r. exact H.
Qed.
Lemma pays_mailbox : forall E i, sized_env E -> pays w2 w2 4000 i (m_mailbox E i).
Proof. intros E i HE. apply pays_win. eapply spec_weak; [apply m_mailbox_cost; exact HE| |auto]. cbn beta. tauto. Qed.
Lemma pays_phrase : forall E i, sized_env E -> pays w2 w2 2000 i (m_phrase E i).
Proof. intros E i HE. apply pays_win. eapply spec_weak; [apply s_phrase_m; exact HE| |auto]. cbn beta. tauto. Qed.
Lemma cube_up : forall x, S x * w2 x <= w3 x.
Proof. intros. unfold w2, w3. lia. Qed.
Lemma square_cube : forall x, w2 x <= w3 x.
Proof. intros. unfold w2, w3. nia. Qed.
(* a list: one thing, then more after commas *)
Lemma pays_list : forall A B w c (p : timed_parser A) (k : A -> list A -> nat * B) i, weighty w -> (forall i, pays w w c i (p i)) -> (forall a l, fst (k a l) <= S (length l)) ->
  pays w w (3 * c + 9) i (let+ (i, m) := p i in let+ (i, l) := t_many (t_prefixed p (bs ",")) i in t_step (fst (k m l)) (Ok (i, snd (k m l)))).
Proof.
  intros A B w c p k i Hw Hp Hk. eapply spec_bind; [apply Hp|cbn beta; intros n H; lia|]. cbn beta. intros j a n (H1 & H2 & H3).
  assert (Hq : forall i, pays w w (c + 2) i (t_prefixed p (bs ",") i)) by (intros; now apply pays_prefixed).
  eapply spec_bind; [exact (many_paid _ w w (c + 2) _ Hw Hw Hq _ j)|intros m []|]. cbn beta. intros r l m ((K1 & K2) & K3). cbn [t_step spec]. split; [ah|]. split; [ah|]. specialize (Hk a l). destruct Hw as [Hw Hw1].
  assert (X : w (reach j) * (reach j - reach r) <= w (reach i) * (reach i - reach r)) by (apply Nat.mul_le_mono; [apply Hw; lia|ah]).
  assert (Y : w (reach i) * (reach i - reach j) <= w (reach i) * (reach i - reach r)) by (apply mono; ah).
  assert (Z : w (reach j) <= w (reach i) * (reach i - reach r)) by (assert (w (reach i) * 1 <= w (reach i) * (reach i - reach r)) by (apply mono; ah); pose proof (Hw (reach j) (reach i) ltac:(lia)); lia).
  assert (V : S (reach i) <= w (reach i) * (reach i - reach r)) by (assert (w (reach i) * 1 <= w (reach i) * (reach i - reach r)) by (apply mono; ah); specialize (Hw1 (reach i)); lia).
  assert (U : length l <= reach i) by ah.
  pose proof (mono c _ _ Y). pose proof (mono (c + 2) _ _ Z). pose proof (mono (S (c + 2)) _ _ X). lia.
Qed.
Definition priced {A} (w W : nat -> nat) (p : env -> timed_parser A) : Prop := exists c, forall E i, sized_env E -> pays w W c i (p E i).
Lemma pays_mailbox_list : priced w2 w2 m_mailbox_list.
Proof.
  eexists. intros E i HE. exact (pays_list _ _ w2 _ (m_mailbox E) (fun m l => (0, m :: l)) i weighty2 (fun j => pays_mailbox E j HE) (fun _ _ => Nat.le_0_l _)).
Qed.
Lemma pays_group : priced w2 w3 m_group.
Proof.
  destruct pays_mailbox_list as [c Hl]. exists (2 * c + 3000). intros E i HE. unfold m_group. pose proof (square_up (reach i)) as Q. pose proof (square_cube (reach i)) as Q3. pose proof (mono c _ _ Q3) as Q3c. change (bs ":") with [58%N]. change (bs ";") with [59%N].
  eapply spec_bind; [apply s_phrase_m; exact HE|cbn beta; intros n H; lia|]. cbn beta. intros i1 nm n1 (H1 & H2 & _ & H3). eapply spec_bind; [apply s_char; lia|cbn beta; intros n ->; lia|]. cbn beta. intros i2 [] n2 (E2 & K1 & K2 & ->).
  assert (W2 : w2 (reach i2) <= w2 (reach i)) by (apply weighty2; ah). pose proof (mono c _ _ W2) as W2c. pose proof (square_cube (reach i)) as SC.
  eapply spec_bind with (G := fun r _ n => ahead i2 r /\ n <= c * (w2 (reach i) * (reach i - reach r)) + c * w2 (reach i) + 50 * reach i + 20) (B := fun _ => False); [|intros n []|].
  - eapply spec_attempt; [apply Hl; exact HE| |]; cbn beta.
    + intros r l n (L1 & L2 & L3). apply spec_ok. split; [exact L1|]. assert (X : w2 (reach i2) * (reach i2 - reach r) <= w2 (reach i) * (reach i - reach r)) by (apply Nat.mul_le_mono; [exact W2|ah]). pose proof (mono c _ _ X). lia.
    + intros n N. eapply spec_attempt; [apply upto_cfws| |]; cbn beta.
      * intros r a m [L1 L2]. apply spec_ok. split; [exact L1|]. assert (reach i2 <= reach i) by ah. set (z := c * (w2 (reach i) * (reach i - reach r))). clearbody z. lia.
      * intros m M. apply spec_ok. split; [apply ahead_refl|]. assert (reach i2 <= reach i) by ah. set (z := c * (w2 (reach i) * (reach i - reach i2))). clearbody z. lia.
  - cbn beta. intros i3 l n3 (L1 & L2). assert (X3 : w2 (reach i) * (reach i - reach i3) <= w3 (reach i)) by (pose proof (cube_up (reach i)); assert (w2 (reach i) * (reach i - reach i3) <= w2 (reach i) * S (reach i)) by (apply mono; lia); lia). pose proof (mono c _ _ X3) as X3c.
    eapply spec_bind; [apply s_char; lia|cbn beta; intros n ->; lia|]. cbn beta. intros i4 [] n4 (E4 & M1 & M2 & ->).
    eapply spec_bind; [apply upto_optional, upto_cfws|cbn beta; intros n N; assert (reach i4 <= reach i) by ah; lia|]. cbn beta. intros r o n5 (N1 & N2). apply spec_ok. split; [ah|]. split; [ah|].
    assert (Y1 : w2 (reach i) * (reach i - reach i3) <= w2 (reach i) * (reach i - reach r)) by (apply mono; ah). assert (Y2 : w2 (reach i) * 1 <= w2 (reach i) * (reach i - reach r)) by (apply mono; ah). pose proof (mono c _ _ Y1). pose proof (mono c _ _ Y2). assert (reach i4 <= reach i) by ah. lia.
Qed.
Lemma pays_address : priced w2 w3 m_address_p.
Proof.
  destruct pays_group as [c Hg]. exists (c + 4000). intros E i HE. unfold m_address_p. pose proof (square_cube (reach i)) as SC. eapply spec_attempt; [apply pays_mailbox; exact HE| |]; cbn beta.
  - intros r a n (H1 & H2 & H3). apply spec_ok. split; [exact H1|]. split; [exact H2|]. set (z := w2 (reach i) * (reach i - reach r)) in *. clearbody z. nia.
  - intros n N. eapply spec_attempt; [apply Hg; exact HE| |]; cbn beta.
    + intros r a m (H1 & H2 & H3). apply spec_ok. split; [exact H1|]. split; [exact H2|]. assert (Y2 : w2 (reach i) * 1 <= w2 (reach i) * (reach i - reach r)) by (apply mono; ah). set (z := w2 (reach i) * (reach i - reach r)) in *. clearbody z. set (y := w2 (reach i)) in *. clearbody y. nia.
    + intros m M. apply spec_err. lia.
Qed.
(* bounds on the whole work *)
Definition within {A} (w : nat -> nat) (p : env -> timed_parser A) : Prop := exists c, forall E i, sized_env E -> win w c i (p E i).
Lemma priced_win : forall A (p : env -> timed_parser A), priced w2 w3 p -> within w3 p.
Proof.
  intros A p [c H]. exists c. intros E i HE. eapply spec_weak; [apply H; exact HE| |auto]. cbn beta. intros r a n (H1 & H2 & H3). split; [exact H1|]. pose proof (cube_up (reach i)). assert (X : w2 (reach i) * (reach i - reach r) <= w2 (reach i) * S (reach i)) by (apply mono; lia).
  assert (Y : w2 (reach i) * (reach i - reach r) <= w3 (reach i)) by lia. pose proof (mono c _ _ Y). lia.
Qed.
Lemma priced_fail : forall A (p : env -> timed_parser A), priced w2 w2 p -> priced w2 w3 p.
Proof. intros A p [c H]. exists c. intros E i HE. eapply pays_fail; [apply H; exact HE|exact square_cube]. Qed.
Lemma win_mailbox : within w3 m_mailbox.
Proof. apply priced_win, priced_fail. exists 4000. exact pays_mailbox. Qed.
Lemma win_mailbox_list : within w3 m_mailbox_list.
Proof. apply priced_win, priced_fail, pays_mailbox_list. Qed.
Lemma win_address_list : within w3 m_address_list.
Proof.
  destruct pays_address as [c Ha]. destruct (priced_win _ _ pays_address) as [c' Hw]. eexists. intros E i HE. unfold m_address_list. eapply win_bind; [auto|apply Hw; exact HE|]. intros r a. cbn beta iota. eapply win_bind; [auto| |intros; apply win_ok].
  eapply (win_many _ w2 w3); [auto|auto|exact cube_up|]. intros j. apply pays_prefixed; [auto|auto|]. intros k. apply Ha. exact HE.
Qed.
Lemma win_bcc : within w3 m_bcc_value.
Proof.
  destruct win_address_list as [c Ha]. eexists. intros E i HE. unfold m_bcc_value. eapply win_attempt; [auto|apply Ha; exact HE|intros; apply win_ok|].
  eapply win_attempt; [auto|eapply win_upto; [auto|apply upto_cfws]|intros; apply win_ok|apply win_err].
Qed.
Lemma win_keywords : within w3 m_keywords_value.
Proof.
  apply priced_win, priced_fail. eexists. intros E i HE.
  exact (pays_list _ _ w2 _ (m_phrase E) (fun m l => (S (length l), m :: l)) i weighty2 (fun j => pays_phrase E j HE) (fun _ _ => le_n _)).
Qed.
Lemma win_text2 : within w2 m_unstructured.
Proof. exists 2000. exact win_text. Qed.
Lemma within_up : forall A (p : env -> timed_parser A), within w2 p -> within w3 p.
Proof. intros A p [c H]. exists c. intros E i HE. eapply win_up; [apply H; exact HE|exact square_cube]. Qed.

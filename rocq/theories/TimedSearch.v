(* What the search for the parts of a multipart costs. *)
From Coq Require Import Lia ZifyBool ZifyNat ZifyN.
From Verif Require Import Base Utf8 CharSets Combinators Base64 QuotedPrintable Charset Percent PercentProofs MimeFields Entity Envs Timed TimedErase TimedCodec TimedCodecFacts TimedCodecLow.
Local Open Scope nat_scope.

(* ---- the same results ---- *)
Lemma and_fst : forall a b n m, t_and (Ok a, n) (Ok b, m) = (Ok (a && b), if a then n + m else n).
Proof. intros [|] b n m; cbn; [reflexivity|now rewrite Nat.add_0_r]. Qed.
(* both loops are this one *)
Fixpoint t_find (tail : bytes) (over : nat -> nat) (n idx : nat) (i boundary : bytes) : timed (option nat) :=
  match n with
  | O => t_ok None
  | S n' =>
    let+ _ := t_step 1 (Ok tt) in
    let+ found := t_and (t_and (t_slice_is i idx (idx + 4) (CRLF ++ bs "--"))
       (t_slice_is i (idx + 4) (idx + 4 + length boundary) boundary))
       (t_slice_is i (idx + 4 + length boundary) (over idx) tail) in
    if found : bool then t_ok (Some idx) else t_find tail over n' (S idx) i boundary
  end.
Definition found_at (tail : bytes) (over : nat -> nat) (idx : nat) (i boundary : bytes) : bool :=
  slice_is i idx (idx + 4) (CRLF ++ bs "--") && slice_is i (idx + 4) (idx + 4 + length boundary) boundary && slice_is i (idx + 4 + length boundary) (over idx) tail.
Definition test_cost (tail : bytes) (over : nat -> nat) (idx : nat) (i boundary : bytes) : nat :=
  S (common (skipn idx i) (CRLF ++ bs "--")) + (if slice_is i idx (idx + 4) (CRLF ++ bs "--") then S (common (skipn (idx + 4) i) boundary) +
    (if slice_is i (idx + 4) (idx + 4 + length boundary) boundary then S (common (skipn (idx + 4 + length boundary) i) tail) else 0) else 0).
Lemma find_S : forall tail over n idx i b, t_find tail over (S n) idx i b =
  if found_at tail over idx i b then (Ok (Some idx), S (test_cost tail over idx i b))
  else (fst (t_find tail over n (S idx) i b), S (test_cost tail over idx i b) + snd (t_find tail over n (S idx) i b)).
Proof.
  intros. cbn [t_find]. unfold t_slice_is, t_step. cbn [t_bind]. rewrite !and_fst. cbn [fst snd]. unfold found_at, test_cost.
  destruct (slice_is i idx (idx + 4) (CRLF ++ bs "--")); cbn [andb]; [|cbn [t_bind fst snd]; rewrite Nat.add_0_r; reflexivity].
  destruct (slice_is i (idx + 4) (idx + 4 + length b) b); cbn [andb]; [|cbn [t_bind fst snd]; rewrite Nat.add_0_r; reflexivity].
  destruct (slice_is i (idx + 4 + length b) (over idx) tail); cbn [t_bind fst snd t_ok]; f_equal; lia.
Qed.
Definition over_opening (b : bytes) (idx : nat) : nat := idx + (2 + 2 + length b + 2).
Definition over_closing (b : bytes) (idx : nat) : nat := idx + (2 + 2 + length b + 2 + 2).
Lemma find_boundary_is : forall n idx i b, t_find_boundary n idx i b = t_find CRLF (over_opening b) n idx i b.
Proof. induction n as [|n IH]; intros; [reflexivity|]. cbn [t_find_boundary t_find]. unfold over_opening. rewrite IH. reflexivity. Qed.
Lemma find_closing_is : forall n idx i b, t_find_closing n idx i b = t_find (bs "--" ++ CRLF) (over_closing b) n idx i b.
Proof. induction n as [|n IH]; intros; [reflexivity|]. cbn [t_find_closing t_find]. unfold over_closing. rewrite IH. reflexivity. Qed.
Lemma same_find_boundary : forall n idx i b, fst (t_find_boundary n idx i b) = Ok (find_boundary n idx i b).
Proof.
  intros. rewrite find_boundary_is. revert idx. induction n as [|n IH]; intros; [reflexivity|]. rewrite find_S. cbn [find_boundary]. fold (found_at CRLF (over_opening b) idx i b). unfold over_opening at 2.
  change (idx + (2 + 2 + length b + 2)) with (over_opening b idx). fold (found_at CRLF (over_opening b) idx i b). destruct (found_at CRLF (over_opening b) idx i b); [reflexivity|]. apply IH.
Qed.
Lemma same_find_closing : forall n idx i b, fst (t_find_closing n idx i b) = Ok (find_closing n idx i b).
Proof.
  intros. rewrite find_closing_is. revert idx. induction n as [|n IH]; intros; [reflexivity|]. rewrite find_S. cbn [find_closing].
  change (idx + (2 + 2 + length b + 2 + 2)) with (over_closing b idx). fold (found_at (bs "--" ++ CRLF) (over_closing b) idx i b). destruct (found_at (bs "--" ++ CRLF) (over_closing b) idx i b); [reflexivity|]. apply IH.
Qed.
Lemma same_before : forall b, erases (t_before_boundary b) (before_boundary b).
Proof.
  intros b i. unfold t_before_boundary, before_boundary. apply same_bind; [|intros [x y]; erb]. unfold t_before_boundary_idx, before_boundary_idx, t_slice_is, t_step. rewrite !and_fst. unfold same. cbn [t_bind fst snd].
  destruct (_ && _ && _ && _); [reflexivity|]. pose proof (same_find_boundary (length i) 0 i b) as H. destruct (t_find_boundary (length i) 0 i b) as [x n]. cbn [fst] in H. subst x. cbn [t_bind fst]. now destruct (find_boundary (length i) 0 i b).
Qed.
Lemma same_before_closing : forall b, erases (t_before_closing_boundary b) (before_closing_boundary b).
Proof.
  intros b i. unfold t_before_closing_boundary, before_closing_boundary. pose proof (same_find_closing (length i) 0 i b) as H. destruct (t_find_closing (length i) 0 i b) as [x n]. cbn [fst] in H. subst x. unfold same. cbn [t_bind fst snd t_step].
  destruct (find_closing (length i) 0 i b) as [k|]; [|reflexivity]. cbn [ok_or t_bind bind fst]. destruct (unchecked_from i _) as [r|e|c]; [|reflexivity..]. cbn [t_bind bind fst t_step]. destruct (unchecked_to i k); reflexivity.
Qed.
Theorem split_parts_same : forall E i ps, parse_multipart E i ps = bind (ok_or (map_get ps (bs "boundary")) (Unknown "Missing boundary parameter")) (fun boundary => bind (fst (t_split_parts boundary i)) (raw_entities E)).
Proof.
  intros E i ps. unfold parse_multipart. destruct (ok_or _ _) as [b|e|c]; [|reflexivity..]. cbn [bind]. unfold t_split_parts.
  pose proof (e_many _ _ _ (same_before b) i) as H. unfold same in H. destruct (t_many (t_before_boundary b) i) as [x n]. cbn [fst] in H. subst x. destruct (many (before_boundary b) i) as [[r l]|e|c]; [|reflexivity..]. cbn [t_bind bind fst].
  pose proof (same_before_closing b r) as H. unfold same in H. destruct (t_before_closing_boundary b r) as [x m]. cbn [fst] in H. subst x. destruct (before_closing_boundary b r) as [[r' p]|e|c]; [|reflexivity..]. cbn [t_bind bind fst t_step].
  destruct (vec_remove (l ++ [p]) 0) as [[q l']|e|c]; reflexivity.
Qed.

(* ---- the work of one search ---- *)
(* the bytes in front of the first CR *)
Fixpoint to_cr (s : bytes) : nat := match s with [] => 0 | c :: r => if (c =? 13)%N then 0 else S (to_cr r) end.
Definition owed (s : bytes) : nat := length s - to_cr s.
Lemma to_cr_length : forall s, to_cr s <= length s.
Proof. induction s as [|c s IH]; [apply le_n|]. cbn [to_cr length]. destruct (c =? 13)%N; lia. Qed.
Lemma common_length : forall a b, common a b <= length b.
Proof. induction a as [|x a IH]; intros [|y b]; cbn [common length]; try lia. destruct (x =? y)%N; [specialize (IH b)|]; lia. Qed.
Lemma common_length_l : forall a b, common a b <= length a.
Proof. induction a as [|x a IH]; intros [|y b]; cbn [common length]; try lia. destruct (x =? y)%N; [specialize (IH b)|]; lia. Qed.
Lemma common_cr : forall a b, ~ In 13%N b -> common a b <= to_cr a.
Proof.
  induction a as [|x a IH]; intros [|y b] H; cbn [common to_cr]; try lia. destruct (N.eqb_spec x y) as [->|]; [|lia].
  destruct (N.eqb_spec y 13) as [->|]; [exfalso; apply H; now left|]. specialize (IH b). assert (~ In 13%N b) by (intros J; apply H; now right). specialize (IH H0). lia.
Qed.
Lemma owed_cons : forall c s, owed s <= owed (c :: s).
Proof. intros c s. unfold owed. cbn [to_cr length]. pose proof (to_cr_length s). destruct (c =? 13)%N; lia. Qed.
Lemma skipn_twice : forall (i : bytes) a b, skipn a (skipn b i) = skipn (a + b) i.
Proof. intros i a b. revert i. induction b as [|b IH]; intros i; [now rewrite Nat.add_0_r|]. rewrite Nat.add_succ_r. destruct i as [|c i]; [now rewrite !skipn_nil|]. apply IH. Qed.
Lemma slice_true : forall i a b x, slice_is i a b x = true -> b <= length i /\ skipn a i = x ++ skipn b i.
Proof.
  intros i a b x. unfold slice_is, slice_get. destruct (a <=? b) eqn:A; [|discriminate]. destruct (b <=? length i) eqn:B; [|discriminate]. cbn [andb]. intros H. apply bytes_eqb_eq in H. apply Nat.leb_le in A, B. split; [exact B|].
  rewrite <- H. replace b with (b - a + a) at 2 by lia. rewrite <- skipn_twice. symmetry. apply firstn_skipn.
Qed.
Lemma test_cost_le : forall tail over idx i b, test_cost tail over idx i b <= 6 + length tail + (if slice_is i idx (idx + 4) (CRLF ++ bs "--") then S (common (skipn (idx + 4) i) b) else 0).
Proof.
  intros. unfold test_cost. pose proof (common_length (skipn idx i) (CRLF ++ bs "--")) as H1. change (length (CRLF ++ bs "--")) with 4 in H1. pose proof (common_length (skipn (idx + 4 + length b) i) tail). destruct (slice_is i idx (idx + 4) (CRLF ++ bs "--")); [|lia]. destruct (slice_is i (idx + 4) (idx + 4 + length b) b); lia.
Qed.
Lemma skipn_cons : forall (i : bytes) idx, idx < length i -> exists c, skipn idx i = c :: skipn (S idx) i.
Proof.
  intros i idx H. destruct (skipn idx i) as [|c r] eqn:Q; [apply (f_equal (@length N)) in Q; rewrite skipn_length in Q; cbn in Q; unfold bytes, byte in *; lia|]. exists c. f_equal.
  change (S idx) with (1 + idx). rewrite <- skipn_twice. now rewrite Q.
Qed.
(* any boundary: each turn may compare all of it *)
Lemma find_any : forall tail over n idx i b, length tail <= 4 ->
  snd (t_find tail over n idx i b) <= (12 + length b) * n /\ (forall j, fst (t_find tail over n idx i b) = Ok (Some j) -> idx <= j /\ snd (t_find tail over n idx i b) <= (12 + length b) * (S j - idx)).
Proof.
  intros tail over n idx i b T. revert idx. induction n as [|n IH]; intros idx; [split; [cbn; lia|discriminate]|]. rewrite find_S.
  pose proof (test_cost_le tail over idx i b) as H. pose proof (common_length (skipn (idx + 4) i) b) as C. assert (test_cost tail over idx i b <= 11 + length b) as H' by (destruct (slice_is i idx (idx + 4) (CRLF ++ bs "--")); lia). clear H C.
  destruct (found_at tail over idx i b); cbn [fst snd].
  - split; [nia|]. intros j J. injection J as <-. split; [lia|]. replace (S idx - idx) with 1 by lia. lia.
  - destruct (IH (S idx)) as [I1 I2]. split; [nia|]. intros j J. destruct (I2 j J) as [J1 J2]. split; [lia|]. replace (S j - idx) with (S (S j - S idx)) by lia. nia.
Qed.
(* a boundary without CR: a comparison goes on at most up to the next CR of the text *)
Lemma find_no_cr : forall tail over n idx i b, length tail <= 4 -> ~ In 13%N b -> n + idx = length i ->
  snd (t_find tail over n idx i b) <= 12 * n + owed (skipn idx i) /\ (forall j, fst (t_find tail over n idx i b) = Ok (Some j) -> idx <= j /\ snd (t_find tail over n idx i b) <= 13 * (S j - idx) + length b).
Proof.
  intros tail over n idx i b T NC L. cut (snd (t_find tail over n idx i b) <= 12 * n + owed (skipn idx i) /\
    (forall j, fst (t_find tail over n idx i b) = Ok (Some j) -> idx <= j < length i /\ snd (t_find tail over n idx i b) + (length i - j) <= 12 * (S j - idx) + length b + owed (skipn idx i))).
  { intros [H1 H2]. split; [exact H1|]. intros j J. destruct (H2 j J) as [J1 J2]. split; [lia|]. assert (owed (skipn idx i) <= length i - idx) by (unfold owed; rewrite skipn_length; lia). lia. }
  revert idx L. induction n as [|n IH]; intros idx L; [split; [cbn; lia|discriminate]|]. rewrite find_S.
  pose proof (test_cost_le tail over idx i b) as H. destruct (skipn_cons i idx ltac:(lia)) as [c Hc].
  assert (test_cost tail over idx i b + owed (skipn (S idx) i) <= 11 + owed (skipn idx i)) as H1.
  { destruct (slice_is i idx (idx + 4) (CRLF ++ bs "--")) eqn:Q; [|pose proof (owed_cons c (skipn (S idx) i)) as O; rewrite <- Hc in O; lia].
    apply slice_true in Q as [_ Q]. rewrite Q in Hc. change ((CRLF ++ bs "--") ++ skipn (idx + 4) i) with (13 :: 10 :: 45 :: 45 :: skipn (idx + 4) i)%N in *. assert (skipn (S idx) i = 10 :: 45 :: 45 :: skipn (idx + 4) i)%N as Hc' by congruence. rewrite Hc', Q. unfold owed. cbn [to_cr length]. 
    change (10 =? 13)%N with false. change (45 =? 13)%N with false. change (13 =? 13)%N with true. cbv iota. pose proof (common_cr (skipn (idx + 4) i) b NC). pose proof (to_cr_length (skipn (idx + 4) i)). lia. }
  destruct (found_at tail over idx i b) eqn:F; cbn [fst snd].
  - split; [lia|]. intros j J. injection J as <-. split; [lia|]. unfold found_at in F. apply andb_true_iff in F as [F _]. apply andb_true_iff in F as [F _]. rewrite F in H. apply slice_true in F as [_ F].
    pose proof (common_length (skipn (idx + 4) i) b). assert (to_cr (skipn idx i) = 0) as Z by (rewrite F; reflexivity). assert (owed (skipn idx i) = length i - idx) by (unfold owed; rewrite Z, skipn_length; lia). lia.
  - destruct (IH (S idx) ltac:(lia)) as [I1 I2]. split; [lia|]. intros j J. destruct (I2 j J) as [J1 J2]. split; [lia|]. lia.
Qed.

(* ---- all the searches ---- *)
(* C pays for a search: for each byte passed if it succeeds, for each byte of the text if it fails *)
Definition pays_search {A} (C : nat) (p : timed_parser A) : Prop := forall i,
  snd (p i) <= C * S (length i) /\ (forall r a, fst (p i) = Ok (r, a) -> length r < length i /\ snd (p i) <= C * (length i - length r)).
Definition pays_find (C : nat) (b : bytes) : Prop := forall tail over i, length tail <= 4 ->
  snd (t_find tail over (length i) 0 i b) <= C * S (length i) /\ (forall j, fst (t_find tail over (length i) 0 i b) = Ok (Some j) -> snd (t_find tail over (length i) 0 i b) <= C * (j + 4 + length b)).
Lemma pays_any : forall b, pays_find (12 + length b) b.
Proof. intros b tail over i T. destruct (find_any tail over (length i) 0 i b T) as [H1 H2]. split; [nia|]. intros j J. destruct (H2 j J) as [_ K]. nia. Qed.
Lemma pays_no_cr : forall b, ~ In 13%N b -> pays_find 13 b.
Proof.
  intros b N tail over i T. destruct (find_no_cr tail over (length i) 0 i b T N ltac:(lia)) as [H1 H2]. split; [|intros j J; destruct (H2 j J) as [_ K]; lia].
  unfold owed in H1. cbn [skipn] in H1. lia.
Qed.
Lemma from_length : forall (i : bytes) n r, unchecked_from i n = Ok r -> length r + n = length i.
Proof. intros i n r. unfold unchecked_from. destruct (length i <? n) eqn:Q; [discriminate|]. intros H. injection H as <-. rewrite skipn_length. unfold bytes, byte in *. lia. Qed.
Lemma pays_before : forall C b, pays_find C b -> pays_search (C + 9) (t_before_boundary b).
Proof.
  intros C b P i. unfold t_before_boundary.
  assert (snd (t_before_boundary_idx i b) <= (C + 9) * S (length i) /\ (forall k l, fst (t_before_boundary_idx i b) = Ok (k, l) -> 4 + length b <= l /\ snd (t_before_boundary_idx i b) <= (C + 9) * (k + l))) as [H1 H2].
  { unfold t_before_boundary_idx, t_slice_is, t_step. rewrite !and_fst. cbn [t_bind fst snd].
    match goal with |- ?n + snd _ <= _ /\ _ => set (m := n) end.
    assert (m <= 8 + length b /\ m <= 8 + length i) as [M1 M2].
    { unfold m. pose proof (common_length (skipn 0 i) (bs "--")) as A1. change (length (bs "--")) with 2 in A1. pose proof (common_length (skipn 2 i) b) as A2. pose proof (common_length_l (skipn 2 i) b) as A3. rewrite skipn_length in A3.
      pose proof (common_length (skipn (2 + length b) i) CRLF) as A4. change (length CRLF) with 2 in A4. destruct (_ <=? _); cbn [andb]; [|lia]. destruct (slice_is i 0 2 (bs "--")); cbn [andb]; [|lia]. destruct (slice_is i 2 (2 + length b) b); lia. }
    clearbody m. destruct (_ && _ && _ && _); cbn [t_ok fst snd].
    - split; [nia|]. intros k l Q. injection Q as <- <-. split; [lia|]. nia.
    - rewrite find_boundary_is. destruct (P CRLF (over_opening b) i ltac:(cbn; lia)) as [F1 F2]. destruct (t_find CRLF (over_opening b) (length i) 0 i b) as [[[j|]|e|c] n]; cbn [t_bind fst snd t_ok t_err] in *.
      + specialize (F2 j eq_refl). split; [nia|]. intros k l Q. injection Q as <- <-. split; [lia|]. nia.
      + split; [nia|discriminate].
      + split; [nia|discriminate].
      + split; [nia|discriminate]. }
  destruct (t_before_boundary_idx i b) as [[[k l]|e|c] n]; cbn [t_bind fst snd] in *; [|split; [lia|discriminate]..]. destruct (H2 k l eq_refl) as [L1 L2]. unfold t_step.
  destruct (unchecked_from i (k + l)) as [r|e|c] eqn:U; cbn [t_bind fst snd]; [|split; [lia|discriminate]..]. apply from_length in U.
  destruct (unchecked_to i k) as [p|e|c]; cbn [t_bind fst snd t_ok]; [|split; [lia|discriminate]..]. split; [lia|]. intros r' a Q. injection Q as <- <-. split; [lia|]. replace (length i - length r) with (k + l) by lia. lia.
Qed.
Lemma closing_cost : forall C b i, pays_find C b -> snd (t_before_closing_boundary b i) <= C * S (length i).
Proof.
  intros C b i P. unfold t_before_closing_boundary. rewrite find_closing_is. destruct (P (bs "--" ++ CRLF) (over_closing b) i ltac:(cbn; lia)) as [F1 _]. destruct (t_find _ _ _ _ _ _) as [[o|e|c] n]; cbn [t_bind fst snd t_step] in *; [|lia..].
  destruct o as [j|]; cbn [ok_or t_bind fst snd]; [|lia]. unfold t_step. destruct (unchecked_from i _); cbn [t_bind fst snd]; [|lia..]. destruct (unchecked_to i j); cbn [t_bind fst snd t_ok]; lia.
Qed.
Lemma many_cost : forall A C (p : timed_parser A) n i, pays_search C p -> snd (t_many_fuel n p i) <= (C + 1) * S (length i) /\ (forall r l, fst (t_many_fuel n p i) = Ok (r, l) -> length r + length l <= length i).
Proof.
  intros A C p n i P. revert i. induction n as [|n IH]; intros i; [split; [cbn; lia|discriminate]|]. cbn [t_many_fuel]. change (t_bind (t_step 1 (Ok tt)) ?f) with (fst (f tt), 1 + snd (f tt)). cbn [fst snd].
  destruct (P i) as [P1 P2]. destruct (p i) as [[[r a]|e|c] k]; cbn [t_attempt fst snd t_ok] in *.
  - destruct (P2 r a eq_refl) as [L K]. destruct (IH r) as [I1 I2]. destruct (t_many_fuel n p r) as [[[r' l]|e|c] k']; cbn [t_bind fst snd t_ok] in *.
    + split; [nia|]. intros q m Q. injection Q as <- <-. specialize (I2 _ _ eq_refl). cbn [length]. lia.
    + split; [nia|discriminate].
    + split; [nia|discriminate].
  - split; [nia|]. intros q m Q. injection Q as <- <-. cbn. lia.
  - split; [nia|discriminate].
Qed.
Lemma split_cost : forall C b i, pays_find C b -> snd (t_split_parts b i) <= (2 * C + 11) * S (length i).
Proof.
  intros C b i P. unfold t_split_parts, t_many. destruct (many_cost _ _ _ (S (length i)) i (pays_before C b P)) as [M1 M2]. destruct (t_many_fuel _ _ i) as [[[r l]|e|c] n]; cbn [t_bind fst snd] in *; [|nia..].
  specialize (M2 _ _ eq_refl). pose proof (closing_cost C b r P) as K. destruct (t_before_closing_boundary b r) as [[[r' p]|e|c] k]; cbn [t_bind fst snd] in *; [|nia..]. unfold t_step. destruct (vec_remove (l ++ [p]) 0) as [[q l']|e|c]; cbn [t_bind fst snd t_ok]; nia.
Qed.
Theorem split_any : forall b i, snd (t_split_parts b i) <= 35 * (S (length b) * S (length i)).
Proof. intros b i. pose proof (split_cost _ b i (pays_any b)). nia. Qed.
Theorem split_no_cr : forall b i, ~ In 13%N b -> snd (t_split_parts b i) <= 37 * S (length i).
Proof. intros b i N. exact (split_cost _ b i (pays_no_cr b N)). Qed.

(* ---- a boundary that the text repeats ---- *)
Definition turn_text : bytes := CRLF ++ bs "--".
Definition bad_boundary (m : nat) : bytes := times m turn_text ++ [120%N].
Lemma never_found : forall tail over idx i m, ~ In 120%N i -> found_at tail over idx i (bad_boundary m) = false.
Proof.
  intros tail over idx i m N. unfold found_at. destruct (slice_is i (idx + 4) (idx + 4 + length (bad_boundary m)) (bad_boundary m)) eqn:Q; [|now rewrite andb_false_r]. exfalso. apply slice_true in Q as [_ Q]. apply N.
  rewrite <- (firstn_skipn (idx + 4) i), Q. unfold bad_boundary. rewrite !in_app_iff. cbn. tauto.
Qed.
Lemma find_skip : forall tail over n idx i m, ~ In 120%N i -> snd (t_find tail over n (S idx) i (bad_boundary m)) <= snd (t_find tail over (S n) idx i (bad_boundary m)).
Proof. intros. rewrite find_S, never_found by assumption. cbn [snd]. lia. Qed.
Lemma common_app : forall a b c, common (a ++ b) (a ++ c) = length a + common b c.
Proof. induction a as [|x a IH]; intros; [reflexivity|]. cbn [app common length]. rewrite N.eqb_refl, IH. reflexivity. Qed.
Lemma times_add : forall n m t, times (n + m) t = times n t ++ times m t.
Proof. intros. unfold times. rewrite repeat_app, concat_app. reflexivity. Qed.
Lemma times_in : forall n t c, In c (times n t) -> In c t.
Proof. induction n as [|n IH]; intros t c H; [destruct H|]. rewrite times_S in H. apply in_app_iff in H as [H|H]; [exact H|exact (IH _ _ H)]. Qed.
Lemma find_low : forall tail over m k pre n, ~ In 120%N pre -> 4 * k <= n -> k * (4 * m) <= snd (t_find tail over n (length pre) (pre ++ times (k + m) turn_text) (bad_boundary m)).
Proof.
  intros tail over m. induction k as [|k IH]; intros pre n NP H; [lia|]. destruct n as [|[|[|[|n]]]]; try lia.
  assert (~ In 120%N (pre ++ times (S k + m) turn_text)) as NI by (intros J; apply in_app_iff in J as [J|J]; [contradiction|]; apply times_in in J; cbn in J; repeat destruct J as [J|J]; discriminate || contradiction).
  rewrite find_S, never_found by exact NI. cbn [snd].
  assert (4 * m <= test_cost tail over (length pre) (pre ++ times (S k + m) turn_text) (bad_boundary m)) as T.
  { unfold test_cost. change (S k + m) with (S (k + m)). rewrite times_S.
    assert (slice_is (pre ++ turn_text ++ times (k + m) turn_text) (length pre) (length pre + 4) (CRLF ++ bs "--") = true) as ->.
    { unfold slice_is, slice_get. rewrite !app_length. change (length turn_text) with 4. replace ((length pre <=? length pre + 4) && (length pre + 4 <=? length pre + (4 + length (times (k + m) turn_text)))) with true by (symmetry; apply andb_true_iff; split; apply Nat.leb_le; lia).
      replace (length pre + 4 - length pre) with 4 by lia. rewrite skipn_app, skipn_all, Nat.sub_diag. reflexivity. }
    replace (skipn (length pre + 4) (pre ++ turn_text ++ times (k + m) turn_text)) with (times (k + m) turn_text) by (rewrite app_assoc; replace (length pre + 4) with (length (pre ++ turn_text)) by (rewrite app_length; reflexivity); rewrite skipn_app, skipn_all, Nat.sub_diag; reflexivity).
    replace (k + m) with (m + k) by lia. rewrite times_add. unfold bad_boundary. rewrite common_app, times_length. change (length turn_text) with 4. lia. }
  pose proof (find_skip tail over (S (S n)) (S (length pre)) _ m NI) as S1. pose proof (find_skip tail over (S n) (S (S (length pre))) _ m NI) as S2. pose proof (find_skip tail over n (S (S (S (length pre)))) _ m NI) as S3.
  assert (~ In 120%N (pre ++ turn_text)) as NP' by (intros J; apply in_app_iff in J as [J|J]; [contradiction|]; cbn in J; repeat destruct J as [J|J]; discriminate || contradiction).
  specialize (IH (pre ++ turn_text) n NP' ltac:(lia)). rewrite <- app_assoc, <- times_S in IH. rewrite app_length in IH. change (length turn_text) with 4 in IH. replace (length pre + 4) with (S (S (S (S (length pre))))) in IH by lia. change (S (k + m)) with (S k + m) in IH. lia.
Qed.
Theorem split_low : forall m, 4 * (m * m) <= snd (t_split_parts (bad_boundary m) (times (m + m) turn_text)).
Proof.
  intros m. pose proof (find_low CRLF (over_opening (bad_boundary m)) m m [] (length (times (m + m) turn_text)) ltac:(intros []) ltac:(rewrite times_length; change (length turn_text) with 4; lia)) as L. cbn [app length] in L.
  unfold t_split_parts, t_many. cbn [t_many_fuel].
  assert (4 * (m * m) <= snd (t_before_boundary (bad_boundary m) (times (m + m) turn_text))) as B.
  { unfold t_before_boundary, t_before_boundary_idx, t_slice_is, t_step. rewrite !and_fst, find_boundary_is. cbn [t_bind fst snd].
    replace (slice_is (times (m + m) turn_text) 0 2 (bs "--")) with false; [|destruct m; [reflexivity|]; cbn [Nat.add]; rewrite times_S; unfold slice_is, slice_get; destruct (_ && _); reflexivity].
    rewrite andb_false_r. cbn [andb]. destruct (t_find _ _ _ _ _ _) as [[o|e|c] k]; cbn [t_bind fst snd] in *; [destruct o as [j|]|..]; cbn [t_ok t_err t_bind fst snd]; [|lia..]. destruct (unchecked_from _ _); cbn [t_bind fst snd]; [destruct (unchecked_to _ _)|..]; cbn [t_bind fst snd t_ok]; lia. }
  destruct (t_before_boundary (bad_boundary m) (times (m + m) turn_text)) as [[[r a]|e|c] k]; cbn [t_attempt t_bind t_step fst snd t_ok] in *.
  - destruct (t_many_fuel _ _ r) as [[[r' l]|e|c] k']; cbn [t_bind fst snd t_ok]; [destruct (t_before_closing_boundary _ _) as [[[? ?]|?|?] ?]|..]; cbn [t_bind fst snd]; [destruct (vec_remove _ _) as [[? ?]|?|?]|..]; cbn [t_bind fst snd t_ok]; lia.
  - destruct (t_before_closing_boundary _ _) as [[[? ?]|?|?] ?]; cbn [t_bind fst snd]; [destruct (vec_remove _ _) as [[? ?]|?|?]|..]; cbn [t_bind fst snd t_ok]; lia.
  - lia.
Qed.

(* ---- no multiple of the length bounds them ---- *)
Lemma beyond : forall K, K * S (3 * (4 * K + 4)) < (4 * K + 4) * (4 * K + 4).
Proof. intros. nia. Qed.
Theorem decode_qp_beyond : forall E K, exists d r, decode_qp E d = Ok r /\ K * S (length d) < snd (t_decode_qp E d).
Proof. intros E K. destruct (decode_qp_low E (4 * K + 4)) as [R L]. do 2 eexists. split; [exact R|]. rewrite times_length, Nat.mul_comm. pose proof (beyond K). change (length (bs "=41")) with 3. nia. Qed.
Theorem decode_header_qp_beyond : forall E K, exists d r, decode_header_qp E d = Ok r /\ K * S (length d) < snd (t_decode_header_qp E d).
Proof. intros E K. destruct (decode_header_qp_low E (4 * K + 4)) as [R L]. do 2 eexists. split; [exact R|]. rewrite times_length, Nat.mul_comm. pose proof (beyond K). change (length (bs "=41")) with 3. nia. Qed.
Theorem encode_qp_beyond : forall E K, exists d, wf_bytes d /\ K * S (length d) < snd (t_encode_qp E d).
Proof.
  intros E K. exists (repeat 195%N (4 * K + 4)). split; [apply Forall_forall; intros c C; apply repeat_spec in C; now subst c|]. pose proof (encode_qp_low E (4 * K + 4)). rewrite repeat_length. pose proof (beyond K). nia.
Qed.
Theorem decode_parameter_beyond : forall E K, exists d r, decode_parameter E d (bs "us-ascii") = Ok r /\ K * S (length d) < snd (t_decode_parameter E d (bs "us-ascii")).
Proof. intros E K. destruct (decode_parameter_low E (4 * K + 4)) as [R L]. do 2 eexists. split; [exact R|]. rewrite times_length, Nat.mul_comm. pose proof (beyond K). change (length (bs "%41")) with 3. nia. Qed.
Theorem split_beyond : forall K, exists b i, length b <= length i /\ K * S (length i) < snd (t_split_parts b i).
Proof.
  intros K. exists (bad_boundary (4 * K + 4)), (times ((4 * K + 4) + (4 * K + 4)) turn_text). unfold bad_boundary. rewrite app_length, !times_length. change (length turn_text) with 4. cbn [length]. split; [lia|]. pose proof (split_low (4 * K + 4)) as L. unfold bad_boundary in L. nia.
Qed.

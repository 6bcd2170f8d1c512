(* multipart.rs: the index searches are searches of the delimiter; splitting inverts joining. *)
From Coq Require Import Lia ZifyBool ZifyNat ZifyN.
From Verif Require Import Base Combinators MimeFields Fields Entity Rfc5322 MultipartSpec Post PercentProofs.

(* the first occurrence of x *)
Fixpoint find_sub (x i : bytes) : option nat :=
  if starts_with i x then Some 0
  else match i with [] => None | _ :: r => option_map S (find_sub x r) end.
Lemma find_sub_some : forall x i k, find_sub x i = Some k ->
  exists p s, i = p ++ x ++ s /\ length p = k.
Proof.
  intros x i. induction i as [|c i IH]; intros k H; cbn [find_sub] in H.
  - destruct (starts_with [] x) eqn:S; [|discriminate]. inversion H; subst. apply starts_with_spec in S as [r S]. exists [], r. auto.
  - destruct (starts_with (c :: i) x) eqn:S.
    + inversion H; subst. apply starts_with_spec in S as [r S]. exists [], r. auto.
    + destruct (find_sub x i) as [j|]; [|discriminate]. inversion H; subst. destruct (IH j eq_refl) as (p & s & -> & <-).
      exists (c :: p), s. auto.
Qed.
Lemma find_sub_none : forall x i, find_sub x i = None <-> ~ occurs x i.
Proof.
  intros x i. induction i as [|c i IH]; cbn [find_sub].
  - destruct (starts_with [] x) eqn:S.
    + apply starts_with_spec in S as [r S]. split; [discriminate|]. intros H. exfalso. apply H. exists [], r. exact S.
    + split; auto. intros _ (p & s & H). symmetry in H. apply app_eq_nil in H as [_ H]. apply app_eq_nil in H as [-> ->]. discriminate.
  - destruct (starts_with (c :: i) x) eqn:S.
    + apply starts_with_spec in S as [r S]. split; [discriminate|]. intros H. exfalso. apply H. exists [], r. exact S.
    + split.
      * intros H (p & s & Hp). destruct (find_sub x i) eqn:F; [discriminate|]. destruct p as [|d p].
        -- cbn in Hp. rewrite Hp, starts_with_app in S. discriminate.
        -- inversion Hp; subst. apply (proj1 IH eq_refl). exists p, s. reflexivity.
      * intros H. replace (find_sub x i) with (@None nat); auto. symmetry. apply IH. intros (p & s & ->). apply H. exists (c :: p), s. reflexivity.
Qed.
Lemma find_sub_here : forall x l, starts_with l x = true -> find_sub x l = Some 0.
Proof. intros x l H. destruct l; cbn [find_sub]; now rewrite H. Qed.
(* the first occurrence is found *)
Lemma find_sub_first : forall x p s, (forall q t, p ++ x ++ s = q ++ x ++ t -> length p <= length q) ->
  find_sub x (p ++ x ++ s) = Some (length p).
Proof.
  intros x p s H. destruct (find_sub x (p ++ x ++ s)) as [k|] eqn:F.
  - f_equal. pose proof (find_sub_some _ _ _ F) as (q & t & Hq & <-). specialize (H q t Hq).
    clear Hq. revert F H. generalize (length q) as k. clear q t. induction p as [|c p IH]; intros k F H.
    + cbn [app] in F. rewrite find_sub_here in F by apply starts_with_app. now inversion F.
    + cbn [app find_sub] in F. destruct (starts_with (c :: p ++ x ++ s) x); [inversion F; subst; cbn in H; lia|].
      destruct (find_sub x (p ++ x ++ s)) as [j|]; [|discriminate]. inversion F; subst. cbn in *. rewrite (IH j); auto. lia.
  - exfalso. apply find_sub_none in F. apply F. exists p, s. reflexivity.
Qed.

Lemma app_inj_len : forall A (a b c d : list A), a ++ b = c ++ d -> length a = length c -> a = c /\ b = d.
Proof.
  intros A a. induction a as [|x a IH]; intros b [|y c] d H L; cbn in *; try discriminate; auto.
  inversion H; subst. destruct (IH b c d) as [-> ->]; auto.
Qed.
(* x occurs at position k *)
Definition at_pos (i : bytes) (k : nat) (x : bytes) : Prop := exists p r, i = p ++ x ++ r /\ length p = k.
Lemma at_pos_app : forall i k x y, at_pos i k x -> at_pos i (k + length x) y -> at_pos i k (x ++ y).
Proof.
  intros i k x y (p & r & -> & <-) (q & t & H & L). exists p. exists t. split; auto.
  rewrite app_assoc in H. apply app_inj_len in H as [<- ->]; [|rewrite app_length; lia]. now rewrite <- !app_assoc.
Qed.
Lemma at_pos_split : forall i k x y, at_pos i k (x ++ y) -> at_pos i k x /\ at_pos i (k + length x) y.
Proof.
  intros i k x y (p & r & -> & <-). split; [exists p, (y ++ r)|exists (p ++ x), r]; rewrite <- ?app_assoc; split; auto. apply app_length.
Qed.
Lemma slice_is_spec : forall i a n x, n = length x -> slice_is i a (a + n) x = true <-> at_pos i a x.
Proof.
  intros i a n x ->. unfold slice_is, slice_get. split.
  - destruct (_ && _) eqn:B; [|discriminate]. intros H. apply bytes_eqb_eq in H. replace (a + length x - a) with (length x) in H by lia.
    exists (firstn a i), (skipn (length x) (skipn a i)). split; [|rewrite firstn_length; lia].
    rewrite <- H at 1. rewrite firstn_skipn. now rewrite firstn_skipn.
  - intros (p & r & -> & <-). rewrite !app_length. replace (_ && _) with true by lia.
    replace (length p + length x - length p) with (length x) by lia. rewrite skipn_app_exact, firstn_app_exact. apply bytes_eqb_refl.
Qed.
Lemma starts_at : forall i k x, x <> [] -> starts_with (skipn k i) x = true <-> at_pos i k x.
Proof.
  intros i k x Hx. rewrite starts_with_spec. split.
  - intros [r H]. exists (firstn k i), r. rewrite <- H, firstn_skipn. split; auto. rewrite firstn_length.
    assert (length (skipn k i) = length i - k) by apply skipn_length. rewrite H, app_length in H0. destruct x; [congruence|cbn in H0; lia].
  - intros (p & r & -> & <-). exists r. now rewrite skipn_app_exact.
Qed.
Lemma delimiter_at : forall i idx b,
  slice_is i idx (idx + 4) (CRLF ++ bs "--") && slice_is i (idx + 4) (idx + 4 + length b) b
    && slice_is i (idx + 4 + length b) (idx + (2 + 2 + length b + 2)) CRLF = starts_with (skipn idx i) (delimiter b).
Proof.
  intros i idx b. apply eq_iff_eq_true. rewrite !andb_true_iff, starts_at by (unfold delimiter; discriminate).
  replace (idx + (2 + 2 + length b + 2)) with (idx + 4 + length b + 2) by lia. rewrite !slice_is_spec by reflexivity.
  unfold delimiter, dash_boundary. split.
  - intros [[H1 H2] H3]. replace (CRLF ++ (bs "--" ++ b) ++ CRLF) with (((CRLF ++ bs "--") ++ b) ++ CRLF) by (rewrite <- !app_assoc; reflexivity).
    apply at_pos_app; [apply at_pos_app; auto|]. rewrite !app_length.
    replace (idx + (length CRLF + length (bs "--") + length b)) with (idx + 4 + length b) by (cbn; lia). exact H3.
  - intros H. replace (CRLF ++ (bs "--" ++ b) ++ CRLF) with (((CRLF ++ bs "--") ++ b) ++ CRLF) in H by (rewrite <- !app_assoc; reflexivity).
    apply at_pos_split in H as [H1 H3]. apply at_pos_split in H1 as [H1 H2]. rewrite !app_length in *.
    replace (idx + (length CRLF + length (bs "--") + length b)) with (idx + 4 + length b) in H3 by (cbn; lia). auto.
Qed.
Lemma closing_at : forall i idx b,
  slice_is i idx (idx + 4) (CRLF ++ bs "--") && slice_is i (idx + 4) (idx + 4 + length b) b
    && slice_is i (idx + 4 + length b) (idx + (2 + 2 + length b + 2 + 2)) (bs "--" ++ CRLF) = starts_with (skipn idx i) (closing_delimiter b).
Proof.
  intros i idx b. apply eq_iff_eq_true. rewrite !andb_true_iff, starts_at by (unfold closing_delimiter; discriminate).
  replace (idx + (2 + 2 + length b + 2 + 2)) with (idx + 4 + length b + 4) by lia. rewrite !slice_is_spec by reflexivity.
  unfold closing_delimiter, dash_boundary.
  assert (R : CRLF ++ (bs "--" ++ b) ++ bs "--" ++ CRLF = ((CRLF ++ bs "--") ++ b) ++ (bs "--" ++ CRLF)) by (rewrite <- !app_assoc; reflexivity).
  split.
  - intros [[H1 H2] H3]. rewrite R. apply at_pos_app; [apply at_pos_app; auto|]. rewrite !app_length.
    replace (idx + (length CRLF + length (bs "--") + length b)) with (idx + 4 + length b) by (cbn; lia). exact H3.
  - intros H. rewrite R in H. apply at_pos_split in H as [H1 H3]. apply at_pos_split in H1 as [H1 H2]. rewrite !app_length in *.
    replace (idx + (length CRLF + length (bs "--") + length b)) with (idx + 4 + length b) in H3 by (cbn; lia). auto.
Qed.
Lemma start_at : forall i b,
  (2 + 2 + length b + 2 - 2 <=? length i) && slice_is i 0 2 (bs "--") && slice_is i 2 (2 + length b) b
    && slice_is i (2 + length b) (2 + 2 + length b + 2 - 2) CRLF = starts_with i (dash_boundary b ++ CRLF).
Proof.
  intros i b. apply eq_iff_eq_true. rewrite !andb_true_iff. rewrite (slice_is_spec i 0 2) by reflexivity. rewrite (slice_is_spec i 2) by reflexivity.
  replace (2 + 2 + length b + 2 - 2) with (2 + length b + 2) by lia. rewrite slice_is_spec by reflexivity. unfold dash_boundary.
  change (starts_with i ((bs "--" ++ b) ++ CRLF)) with (starts_with (skipn 0 i) ((bs "--" ++ b) ++ CRLF)). rewrite starts_at by discriminate.
  split.
  - intros [[[_ H1] H2] H3]. apply at_pos_app; [now apply at_pos_app|]. rewrite app_length. exact H3.
  - intros H. pose proof H as H0. apply at_pos_split in H as [H1 H3]. apply at_pos_split in H1 as [H1 H2]. rewrite app_length in H3. repeat split; auto.
    destruct H3 as (p & r & -> & L). apply Nat.leb_le. rewrite !app_length. cbn in *. lia.
Qed.

Lemma find_index : forall x (n idx : nat) (i : bytes) f, x <> [] ->
  (forall n idx, f (S n) idx = if starts_with (skipn idx i) x then Some idx else f n (S idx)) -> (forall idx, f 0 idx = None) ->
  n = length (skipn idx i) -> f n idx = option_map (fun k => idx + k) (find_sub x (skipn idx i)).
Proof.
  intros x n. induction n as [|n IH]; intros idx i f Hx Hf H0 Hn.
  - rewrite H0. destruct (skipn idx i); [|discriminate]. cbn. destruct x; [congruence|reflexivity].
  - rewrite Hf. destruct (skipn idx i) as [|c r] eqn:Sk; [discriminate|].
    assert (R : skipn (S idx) i = r).
    { assert (L : length (firstn idx i) = idx).
      { rewrite firstn_length. assert (L : length (skipn idx i) = length i - idx) by apply skipn_length. rewrite Sk in L. cbn in L. lia. }
      rewrite <- (firstn_skipn idx i), Sk, skipn_app, skipn_all2, L by lia. replace (S idx - idx) with 1 by lia. reflexivity. }
    cbn [find_sub]. destruct (starts_with (c :: r) x); [cbn; f_equal; lia|].
    rewrite (IH (S idx) i f); auto; [|rewrite R; cbn in Hn; lia]. rewrite R. destruct (find_sub x r); cbn; [f_equal; lia|auto].
Qed.
Lemma find_boundary_spec : forall i b, find_boundary (length i) 0 i b = find_sub (delimiter b) i.
Proof.
  intros i b. rewrite (find_index (delimiter b) (length i) 0 i (fun n idx => find_boundary n idx i b)).
  - cbn [skipn]. destruct (find_sub (delimiter b) i); reflexivity.
  - discriminate.
  - intros. cbn [find_boundary]. now rewrite delimiter_at.
  - reflexivity.
  - reflexivity.
Qed.
Lemma find_closing_spec : forall i b, find_closing (length i) 0 i b = find_sub (closing_delimiter b) i.
Proof.
  intros i b. rewrite (find_index (closing_delimiter b) (length i) 0 i (fun n idx => find_closing n idx i b)).
  - cbn [skipn]. destruct (find_sub (closing_delimiter b) i); reflexivity.
  - discriminate.
  - intros. cbn [find_closing]. now rewrite closing_at.
  - reflexivity.
  - reflexivity.
Qed.
Lemma delimiter_length : forall b, length (delimiter b) = 2 + 2 + length b + 2.
Proof. intros. unfold delimiter, dash_boundary. rewrite !app_length. cbn. lia. Qed.
Lemma closing_length : forall b, length (closing_delimiter b) = 2 + 2 + length b + 2 + 2.
Proof. intros. unfold closing_delimiter, dash_boundary. rewrite !app_length. cbn. lia. Qed.

(* before_boundary: the short delimiter at the very beginning, or the first delimiter *)
Theorem before_boundary_spec : forall b i,
  (exists r, i = dash_boundary b ++ CRLF ++ r /\ before_boundary b i = Ok (r, [])) \/
  (starts_with i (dash_boundary b ++ CRLF) = false /\ exists p r, i = p ++ delimiter b ++ r /\
     find_sub (delimiter b) i = Some (length p) /\ before_boundary b i = Ok (r, p)) \/
  (starts_with i (dash_boundary b ++ CRLF) = false /\ ~ occurs (delimiter b) i /\ exists e, before_boundary b i = Err e).
Proof.
  intros b i. unfold before_boundary, before_boundary_idx. cbv zeta. rewrite start_at.
  destruct (starts_with i (dash_boundary b ++ CRLF)) eqn:S.
  - left. apply starts_with_spec in S as [r ->]. exists r. split; [now rewrite <- app_assoc|]. cbn [bind].
    replace (0 + (2 + 2 + length b + 2 - 2)) with (length (dash_boundary b ++ CRLF)) by (unfold dash_boundary; rewrite !app_length; cbn; lia).
    rewrite unchecked_from_app. cbn [bind]. reflexivity.
  - right. rewrite find_boundary_spec. destruct (find_sub (delimiter b) i) as [k|] eqn:F; cbn [bind].
    + left. split; auto. pose proof (find_sub_some _ _ _ F) as (p & r & -> & <-). exists p, r. repeat split; auto.
      rewrite <- delimiter_length. rewrite <- app_length. rewrite app_assoc, unchecked_from_app. cbn [bind].
      rewrite <- app_assoc, unchecked_to_app. reflexivity.
    + right. split; auto. split; [now apply find_sub_none|eauto].
Qed.
Theorem before_closing_spec : forall b i,
  (exists p r, i = p ++ closing_delimiter b ++ r /\ find_sub (closing_delimiter b) i = Some (length p) /\
     before_closing_boundary b i = Ok (r, p)) \/
  (~ occurs (closing_delimiter b) i /\ exists e, before_closing_boundary b i = Err e).
Proof.
  intros b i. unfold before_closing_boundary. rewrite find_closing_spec.
  destruct (find_sub (closing_delimiter b) i) as [k|] eqn:F; cbn [ok_or bind].
  - left. pose proof (find_sub_some _ _ _ F) as (p & r & -> & <-). exists p, r. repeat split; auto.
    rewrite <- closing_length. rewrite <- app_length. rewrite app_assoc, unchecked_from_app. cbn [bind].
    rewrite <- app_assoc, unchecked_to_app. reflexivity.
  - right. split; [now apply find_sub_none|eauto].
Qed.

(* ---- what is consumed ---- *)
Inductive split_text (b : bytes) : bytes -> bytes -> Prop :=
| split_short : split_text b (dash_boundary b ++ CRLF) []
| split_full : forall p, split_text b (p ++ delimiter b) p.
Lemma split_nonempty : forall b c p, split_text b c p -> c <> [].
Proof. intros b c p [|p'] H; [discriminate|]. apply app_eq_nil in H as [_ H]. discriminate. Qed.
Lemma post_before_boundary : forall K b i, post K (before_boundary b i) i (split_text b).
Proof.
  intros K b i. destruct (before_boundary_spec b i) as [(r & -> & ->)|[(_ & p & r & -> & _ & ->)|(_ & _ & e & ->)]]; unfold post; auto.
  - exists (dash_boundary b ++ CRLF). rewrite <- app_assoc. split; auto. constructor.
  - exists (p ++ delimiter b). rewrite <- app_assoc. split; auto. constructor.
Qed.

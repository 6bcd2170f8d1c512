(* The case-insensitive tag parser: it never crashes and recognises exactly the
   capitalisations of its name. *)
From Coq Require Import ZArith Lia ZifyBool ZifyNat ZifyN.
From Verif Require Import Base Utf8 Combinators Rfc5322 Post.
Local Open Scope N_scope.

(* the two constants are each other with the case of letters swapped *)
Definition swap_case (a : N) : N := if is_lower a then a - 32 else if is_upper a then a + 32 else a.
Definition nocase_pair (e1 e2 : bytes) : bool := bytes_eqb e2 (map swap_case e1).

Lemma bytes_eqb_true : forall a b, bytes_eqb a b = true -> a = b.
Proof.
  induction a as [|x a IH]; intros [|y b]; cbn; try discriminate; auto.
  intros H. apply andb_true_iff in H as [H1 H2]. apply N.eqb_eq in H1. apply IH in H2. now subst.
Qed.
Lemma opposite_swap : forall e, opposite_case e (map swap_case e) = true.
Proof.
  induction e as [|a e IH]; auto. cbn [map opposite_case]. rewrite IH, andb_true_r.
  unfold swap_case, to_upper, to_lower, is_upper, is_lower. destruct (97 <=? a) eqn:?, (a <=? 122) eqn:?, (65 <=? a) eqn:?, (a <=? 90) eqn:?; cbn; lia.
Qed.
Lemma fold_or_swap : forall c a, (c = a \/ c = swap_case a) <-> fold_case c = fold_case a.
Proof.
  intros. unfold swap_case, fold_case, is_upper, is_lower.
  destruct (97 <=? a) eqn:?, (a <=? 122) eqn:?, (65 <=? a) eqn:?, (a <=? 90) eqn:?, (65 <=? c) eqn:?, (c <=? 90) eqn:?; cbn; lia.
Qed.

(* does the input start with e, up to case? *)
Fixpoint starts_nocase (i e : bytes) : bool :=
  match e, i with
  | [], _ => true
  | a :: e', c :: i' => (fold_case c =? fold_case a) && starts_nocase i' e'
  | _ :: _, [] => false
  end.
Lemma starts_nocase_spec : forall e i, starts_nocase i e = true <-> exists n r, i = n ++ r /\ same_nocase n e.
Proof.
  unfold same_nocase. induction e as [|a e IH]; intros i.
  - split; [exists [], i; auto|]. intros _. destruct i; reflexivity.
  - destruct i as [|c i]; cbn [starts_nocase].
    + split; [discriminate|]. intros (n & r & H & K). symmetry in H. apply app_eq_nil in H as [-> _]. discriminate.
    + rewrite andb_true_iff, N.eqb_eq, IH. split.
      * intros [H (n & r & -> & K)]. exists (c :: n), r. cbn. split; auto. congruence.
      * intros ([|x n] & r & H & K); [discriminate|]. inversion H; subst. cbn in K. inversion K. eauto.
Qed.
Lemma nocase_length : forall a b, same_nocase a b -> length a = length b.
Proof. intros a b H. unfold same_nocase in H. apply (f_equal (@length N)) in H. now rewrite !map_length in H. Qed.
Lemma starts_nocase_app : forall n r e, same_nocase n e -> starts_nocase (n ++ r) e = true.
Proof. intros. apply starts_nocase_spec. eauto. Qed.

Lemma nth_error_mid : forall A (pre : list A) x r, nth_error (pre ++ x :: r) (length pre) = Some x.
Proof. intros A pre x r. induction pre; auto. Qed.

Lemma tag_no_case_loop_spec : forall msg e pe i pi, length pe = length pi -> (length e <= length i)%nat ->
  tag_no_case_loop (length e) (length pi) (pi ++ i) (pe ++ e) (map swap_case (pe ++ e)) msg
  = if starts_nocase i e then Ok tt else Err (Explicit msg).
Proof.
  intros msg. induction e as [|a e IH]; intros pe i pi Hp Hl.
  - destruct i; reflexivity.
  - destruct i as [|c i]; [cbn in Hl; lia|]. cbn [length tag_no_case_loop starts_nocase].
    unfold unchecked_get. rewrite nth_error_mid. cbn [bind]. rewrite <- Hp at 1. rewrite nth_error_mid. cbn [bind].
    rewrite nth_error_map. rewrite <- Hp at 1. rewrite nth_error_mid. cbn [option_map bind].
    specialize (IH (pe ++ [a]) i (pi ++ [c])). rewrite !app_length, <- !app_assoc in IH. cbn [app length] in IH.
    rewrite !Nat.add_1_r in IH. cbn [length] in Hl.
    assert (IH' := IH ltac:(lia) ltac:(lia)). rewrite IH'. pose proof (fold_or_swap c a) as F.
    destruct (N.eqb_spec c a), (N.eqb_spec c (swap_case a)), (N.eqb_spec (fold_case c) (fold_case a)); cbn [negb andb]; try reflexivity; exfalso; tauto.
Qed.

Lemma tag_no_case_spec : forall E e1 e2 msg i, nocase_pair e1 e2 = true ->
  tag_no_case E e1 e2 msg i = if starts_nocase i e1 then Ok (skipn (length e1) i, tt)
    else if (length i <? length e1)%nat then Err (Unknown "Tag error, input is smaller than expected string") else Err (Explicit msg).
Proof.
  intros E e1 e2 msg i H. unfold nocase_pair in H. apply bytes_eqb_true in H. subst e2. unfold tag_no_case.
  rewrite map_length, Nat.eqb_refl, opposite_swap, !andb_false_r.
  destruct (Nat.ltb_spec (length i) (length e1)) as [Hl|Hl].
  - destruct (starts_nocase i e1) eqn:S; auto. apply starts_nocase_spec in S as (n & r & -> & S). apply nocase_length in S.
    rewrite app_length in Hl. lia.
  - pose proof (tag_no_case_loop_spec msg e1 [] i [] eq_refl Hl) as L. cbn [app length] in L. rewrite L.
    destruct (starts_nocase i e1); auto. cbn [bind]. unfold unchecked_from.
    destruct (Nat.ltb_spec (length i) (length e1)); [lia|]. reflexivity.
Qed.
Lemma tag_no_case_ok : forall E e1 e2 msg n r, nocase_pair e1 e2 = true -> same_nocase n e1 ->
  tag_no_case E e1 e2 msg (n ++ r) = Ok (r, tt).
Proof.
  intros E e1 e2 msg n r H Hn. rewrite tag_no_case_spec, starts_nocase_app by auto. rewrite <- (nocase_length _ _ Hn).
  now rewrite skipn_app_exact.
Qed.
Lemma tag_no_case_err : forall E e1 e2 msg i, nocase_pair e1 e2 = true -> starts_nocase i e1 = false ->
  exists e, tag_no_case E e1 e2 msg i = Err e.
Proof. intros E e1 e2 msg i H Hn. rewrite tag_no_case_spec, Hn by auto. destruct (_ <? _)%nat; eauto. Qed.
Lemma post_tag_no_case : forall E K e1 e2 msg i, nocase_pair e1 e2 = true ->
  post K (tag_no_case E e1 e2 msg i) i (fun c _ => same_nocase c e1).
Proof.
  intros E K e1 e2 msg i H. destruct (starts_nocase i e1) eqn:S.
  - apply starts_nocase_spec in S as (n & r & -> & S). rewrite (tag_no_case_ok E e1 e2 msg n r) by auto. exists n. auto.
  - destruct (tag_no_case_err E e1 e2 msg i H S) as [e ->]. exact I.
Qed.

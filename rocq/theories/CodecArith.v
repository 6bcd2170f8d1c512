(* Proof support: bit-level facts about bytes, list surgery. *)
From Coq Require Import ZArith Lia ZifyBool ZifyNat ZifyN.
From Verif Require Import Base CodecSpec.
Ltac Zify.zify_post_hook ::= Z.to_euclidean_division_equations.
Local Open Scope N_scope.

(* a boolean test that holds for 0 .. n-1 *)
Definition below (n : nat) (f : N -> bool) : bool := forallb f (map N.of_nat (seq 0 n)).
Lemma below_spec : forall n f, below n f = true -> forall c, c < N.of_nat n -> f c = true.
Proof.
  intros n f H c Hc. unfold below in H. rewrite forallb_forall in H. apply H.
  rewrite in_map_iff. exists (N.to_nat c). split; [lia|]. apply in_seq. lia.
Qed.

Definition opt_eqb (a b : option N) : bool :=
  match a, b with Some x, Some y => x =? y | None, None => true | _, _ => false end.
Lemma opt_eqb_eq : forall a b, opt_eqb a b = true -> a = b.
Proof. intros [x|] [y|]; cbn; try discriminate; auto. intros H. apply N.eqb_eq in H. now subst. Qed.

Lemma position_none : forall n l c, Forall (fun x => x < n) l -> n <= c -> position c l = None.
Proof.
  intros n l c H Hc. induction H; cbn; auto. destruct (N.eqb_spec c x); [lia|]. now rewrite IHForall.
Qed.
Lemma position_lt : forall l c p, position c l = Some p -> p < N.of_nat (length l).
Proof.
  induction l as [|x l IH]; cbn; [discriminate|]. intros c p. destruct (c =? x).
  - intros H. inversion H. lia.
  - destruct (position c l) eqn:E; [|discriminate]. intros H. inversion H. apply IH in E. lia.
Qed.

Lemma list_update_at : forall (a b : bytes) y v, list_update (a ++ y :: b) (length a) v = a ++ v :: b.
Proof.
  intros. unfold list_update. f_equal.
  - rewrite firstn_app, firstn_all, Nat.sub_diag. cbn. apply app_nil_r.
  - f_equal. replace (a ++ y :: b) with ((a ++ [y]) ++ b) by (rewrite <- app_assoc; reflexivity).
    replace (S (length a)) with (length (a ++ [y])) by (rewrite app_length; cbn; lia).
    rewrite skipn_app, skipn_all, Nat.sub_diag. reflexivity.
Qed.
Lemma unchecked_set_at : forall (a b : bytes) y v, unchecked_set (a ++ y :: b) (length a) v = Ok (a ++ v :: b).
Proof.
  intros. unfold unchecked_set. rewrite app_length. cbn [length].
  destruct (Nat.ltb_spec (length a) (length a + S (length b))); [|lia]. now rewrite list_update_at.
Qed.
Lemma vec_set_at : forall (a b : bytes) y v, vec_set (a ++ y :: b) (length a) v = Ok (a ++ v :: b).
Proof.
  intros. unfold vec_set. rewrite app_length. cbn [length].
  destruct (Nat.ltb_spec (length a) (length a + S (length b))); [|lia]. now rewrite list_update_at.
Qed.
Lemma vec_insert_at : forall (a b : bytes) v, vec_insert (a ++ b) (length a) v = Ok (a ++ v :: b).
Proof.
  intros. unfold vec_insert. rewrite app_length.
  destruct (Nat.leb_spec (length a) (length a + length b)); [|lia].
  rewrite firstn_app, firstn_all, skipn_app, skipn_all, Nat.sub_diag. cbn. now rewrite app_nil_r.
Qed.
Lemma vec_remove_at : forall (a b : bytes) y, vec_remove (a ++ y :: b) (length a) = Ok (y, a ++ b).
Proof.
  intros. unfold vec_remove. rewrite nth_error_app2, Nat.sub_diag by lia. cbn [nth_error].
  f_equal. f_equal. rewrite firstn_app, firstn_all, Nat.sub_diag. cbn [firstn]. rewrite app_nil_r. f_equal.
  replace (a ++ y :: b) with ((a ++ [y]) ++ b) by (rewrite <- app_assoc; reflexivity).
  replace (S (length a)) with (length (a ++ [y])) by (rewrite app_length; cbn; lia).
  rewrite skipn_app, skipn_all, Nat.sub_diag. reflexivity.
Qed.
Lemma nth_error_at : forall A (a b : list A) k, nth_error (a ++ b) (length a + k) = nth_error b k.
Proof. intros. rewrite nth_error_app2 by lia. f_equal. lia. Qed.
Lemma nth_error_at0 : forall A (a b : list A), nth_error (a ++ b) (length a) = nth_error b 0.
Proof. intros. rewrite nth_error_app2 by lia. f_equal. lia. Qed.

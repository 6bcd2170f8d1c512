(* Running the combinators forwards: the loop of `many` as a sequence of steps. *)
From Coq Require Import Lia ZifyBool ZifyNat ZifyN.
From Verif Require Import Base Utf8 CharSets Combinators Post.

Inductive steps {A} (p : parser A) : bytes -> list A -> bytes -> Prop :=
| steps_stop : forall i e, p i = Err e -> steps p i [] i
| steps_more : forall i r a l r', p i = Ok (r, a) -> length r < length i -> steps p r l r' -> steps p i (a :: l) r'.

Lemma steps_fuel : forall A (p : parser A) i l r, steps p i l r -> forall n, length i < n -> many_fuel n p i = Ok (r, l).
Proof.
  intros A p i l r H. induction H as [i e H|i r a l r' H L Hs IH]; intros [|n] Hn; try lia; cbn [many_fuel]; rewrite H; cbn [attempt]; auto.
  rewrite IH by lia. reflexivity.
Qed.
Lemma many_steps : forall A (p : parser A) i l r, steps p i l r -> many p i = Ok (r, l).
Proof. intros. unfold many. eapply steps_fuel; eauto. Qed.
Lemma many1_steps : forall A (p : parser A) i l r, steps p i l r -> l <> [] -> many1 p i = Ok (r, l).
Proof.
  intros A p i l r H Hl. destruct H as [i e H|i r a l r' H L Hs]; [congruence|]. unfold many1. rewrite H. cbn [bind].
  rewrite (many_steps _ _ _ _ _ Hs). reflexivity.
Qed.
Lemma ignore_many_steps : forall A (p : parser A) i l r, steps p i l r -> ignore_many p i = Ok (r, tt).
Proof. intros. unfold ignore_many. erewrite many_steps; eauto. reflexivity. Qed.
Lemma collect_many_steps : forall (p : parser bytes) i l r, steps p i l r -> collect_many p i = Ok (r, concat l).
Proof. intros. unfold collect_many. erewrite many_steps; eauto. reflexivity. Qed.
(* one element followed by a loop *)
Lemma many_none : forall A (p : parser A) i e, p i = Err e -> many p i = Ok (i, []).
Proof. intros. apply many_steps. econstructor; eauto. Qed.

(* `many` always is such a sequence *)
Lemma many_fuel_inv : forall A (p : parser A) n i l r, (forall j r a, p j = Ok (r, a) -> length r < length j) ->
  many_fuel n p i = Ok (r, l) -> steps p i l r.
Proof.
  intros A p n. induction n as [|n IH]; intros i l r Hp H; [discriminate|]. cbn [many_fuel] in H.
  destruct (p i) as [[i' a]|e|k] eqn:P; cbn [attempt] in H; [| |discriminate].
  - destruct (many_fuel n p i') as [[r' l']|e|k] eqn:M; cbn [bind] in H; inversion H; subst. eapply steps_more; eauto.
  - inversion H; subst. eapply steps_stop; eauto.
Qed.
Lemma many_inv : forall A (p : parser A) i l r, (forall j r a, p j = Ok (r, a) -> length r < length j) ->
  many p i = Ok (r, l) -> steps p i l r.
Proof. intros. eapply many_fuel_inv; eauto. Qed.

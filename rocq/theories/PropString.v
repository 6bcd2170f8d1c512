(* Property C43: joining slices of memory. *)
From Coq Require Import Lia.
From Verif Require Import Base Utf8 StringCow StringSpec StringFacts.
Local Open Scope N_scope.

Theorem C43_concatenation : forall m s1 s2 v1 v2, is_text m s1 v1 -> is_text m s2 v2 ->
  exists s, add_string m s1 s2 = Ok s /\ is_text m s (v1 ++ v2).
Proof. exact add_string_text. Qed.
Print Assumptions C43_concatenation.
Theorem C43_concatenation_str : forall m s1 p2 n2 v1 v2, is_text m s1 v1 -> is_text m (Borrowed p2 n2) v2 ->
  exists s, add_str m s1 p2 n2 = Ok s /\ is_text m s (v1 ++ v2).
Proof. exact add_str_text. Qed.
Print Assumptions C43_concatenation_str.
(* a borrowed result is exactly the memory of the operands *)
Theorem C43_borrowed_is_adjacent : forall m s1 s2 p n, add_string m s1 s2 = Ok (Borrowed p n) ->
  exists p1 n1 p2 n2, s1 = Borrowed p1 n1 /\ s2 = Borrowed p2 n2 /\ n = (n1 + n2)%nat /\
    (n2 = 0%nat /\ p = p1 \/ n1 = 0%nat /\ p = p2 \/ p = p1 /\ p2 = p1 + N.of_nat n1).
Proof. exact add_string_borrowed. Qed.
Print Assumptions C43_borrowed_is_adjacent.
(* slices of one allocation give a slice of it *)
Theorem C43_stays_inside : forall m lo hi s1 s2 s, slice_in lo hi s1 -> slice_in lo hi s2 -> add_string m s1 s2 = Ok s -> slice_in lo hi s.
Proof. exact add_string_in. Qed.
Print Assumptions C43_stays_inside.
(* any number of slices, one after the other in memory: no allocation *)
Theorem C43_zero_copy : forall m somewhere p l k, consecutive p l k -> Forall (fun c => exists x, is_text m c x) l ->
  exists p', join m (empty_string somewhere) l = Ok (Borrowed p' k) /\ (k = 0%nat \/ p' = p).
Proof. exact join_consecutive. Qed.
Print Assumptions C43_zero_copy.
Theorem C43_any_number : forall m l acc v vs, is_text m acc v -> Forall2 (is_text m) l vs -> exists s, join m acc l = Ok s /\ is_text m s (v ++ concat vs).
Proof. exact join_text. Qed.
Print Assumptions C43_any_number.
(* "the check guarantees safety" (string.rs:28) is false for slices of two allocations that happen to touch: the result is a slice of neither *)
Theorem C43_two_allocations_refuted : exists m lo mid hi s1 s2 s, lo < mid /\ mid < hi /\ is_text m s1 (bs "a") /\ is_text m s2 (bs "b") /\ slice_in lo mid s1 /\ slice_in mid hi s2 /\
  add_string m s1 s2 = Ok s /\ ~ slice_in lo mid s /\ ~ slice_in mid hi s.
Proof. exact across. Qed.
Print Assumptions C43_two_allocations_refuted.
Definition some_mem : mem := fun a => if a <? 100 then None else nth_error (bs "abcdef") (N.to_nat (a - 100)).
Example C43_example : is_text some_mem (Borrowed 101 2) (bs "bc") /\ is_text some_mem (Borrowed 103 2) (bs "de")
  /\ add_string some_mem (Borrowed 101 2) (Borrowed 103 2) = Ok (Borrowed 101 4)
  /\ add_string some_mem (Borrowed 101 2) (Borrowed 104 2) = Ok (Owned (bs "bcef"))
  /\ add_string some_mem (Borrowed 7 0) (Borrowed 104 2) = Ok (Borrowed 104 2)
  /\ join some_mem (empty_string 3) [Borrowed 101 2; Borrowed 103 0; Borrowed 103 1] = Ok (Borrowed 101 3)
  /\ consecutive 101 [Borrowed 101 2; Borrowed 103 0; Borrowed 103 1] 3.
Proof.
  split; [split; [reflexivity|]; split; [reflexivity|]; intros [|[|[|k]]] b H; cbn in H; try discriminate; injection H as <-; reflexivity|].
  split; [split; [reflexivity|]; split; [reflexivity|]; intros [|[|[|k]]] b H; cbn in H; try discriminate; injection H as <-; reflexivity|].
  do 4 (split; [vm_compute; reflexivity|]).
  apply (consecutive_cons 101 2 _ 1). apply (consecutive_cons 103 0 _ 1). apply (consecutive_cons 103 1 [] 0). constructor.
Qed.

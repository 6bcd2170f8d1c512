(* Facts about UTF-8 texts. *)
From Coq Require Import Lia ZifyBool ZifyNat ZifyN.
From Verif Require Import Base Utf8.
Local Open Scope N_scope.

(* the first character of a valid text *)
Inductive utf8_char : bytes -> Prop :=
| utf8_1 : forall a, a < 128 -> utf8_char [a]
| utf8_2 : forall a b, 194 <= a <= 223 -> 128 <= b <= 191 -> utf8_char [a; b]
| utf8_3 : forall a b c, 224 <= a <= 239 -> (a = 224 -> 160 <= b) -> (a = 237 -> b <= 159) -> 128 <= b <= 191 -> 128 <= c <= 191 -> utf8_char [a; b; c]
| utf8_4 : forall a b c d, 240 <= a <= 244 -> (a = 240 -> 144 <= b) -> (a = 244 -> b <= 143) -> 128 <= b <= 191 -> 128 <= c <= 191 -> 128 <= d <= 191 -> utf8_char [a; b; c; d].
Lemma utf8_char_step : forall x l, utf8_char x -> utf8_valid (x ++ l) = utf8_valid l.
Proof.
  intros x l [a Ha|a b Ha Hb|a b c Ha H1 H2 Hb Hc|a b c d Ha H1 H2 Hb Hc Hd]; cbn [app utf8_valid].
  - destruct (a <? 128) eqn:X; [reflexivity|lia].
  - unfold in_range, cont. destruct (a <? 128) eqn:X; [lia|]. unfold in_range. replace ((194 <=? a) && (a <=? 223)) with true by lia. replace ((128 <=? b) && (b <=? 191)) with true by lia. reflexivity.
  - unfold cont, in_range. destruct (a <? 128) eqn:X; [lia|]. destruct ((194 <=? a) && (a <=? 223)) eqn:X1; [lia|].
    destruct (a =? 224) eqn:X2; [replace ((160 <=? b) && (b <=? 191) && ((128 <=? c) && (c <=? 191))) with true by lia; reflexivity|].
    destruct ((225 <=? a) && (a <=? 236) || (238 <=? a) && (a <=? 239)) eqn:X3; [replace ((128 <=? b) && (b <=? 191) && ((128 <=? c) && (c <=? 191))) with true by lia; reflexivity|].
    replace (a =? 237) with true by lia. replace ((128 <=? b) && (b <=? 159) && ((128 <=? c) && (c <=? 191))) with true by lia. reflexivity.
  - unfold cont, in_range. destruct (a <? 128) eqn:X; [lia|]. destruct ((194 <=? a) && (a <=? 223)) eqn:X1; [lia|]. destruct (a =? 224) eqn:X2; [lia|].
    destruct ((225 <=? a) && (a <=? 236) || (238 <=? a) && (a <=? 239)) eqn:X3; [lia|]. destruct (a =? 237) eqn:X4; [lia|].
    destruct (a =? 240) eqn:X5; [replace ((144 <=? b) && (b <=? 191) && ((128 <=? c) && (c <=? 191)) && ((128 <=? d) && (d <=? 191))) with true by lia; reflexivity|].
    destruct ((241 <=? a) && (a <=? 243)) eqn:X6; [replace ((128 <=? b) && (b <=? 191) && ((128 <=? c) && (c <=? 191)) && ((128 <=? d) && (d <=? 191))) with true by lia; reflexivity|].
    replace (a =? 244) with true by lia. replace ((128 <=? b) && (b <=? 143) && ((128 <=? c) && (c <=? 191)) && ((128 <=? d) && (d <=? 191))) with true by lia. reflexivity.
Qed.
Lemma utf8_split : forall a l, utf8_valid (a :: l) = true -> exists x r, a :: l = x ++ r /\ utf8_char x /\ utf8_valid r = true.
Proof.
  intros a l H. cbn [utf8_valid] in H. unfold cont, in_range in H. destruct (a <? 128) eqn:X; [exists [a], l; split; [reflexivity|]; split; [constructor; lia|exact H]|].
  destruct l as [|b l]; [discriminate|]. destruct ((194 <=? a) && (a <=? 223)) eqn:X1.
  { exists [a; b], l. split; [reflexivity|]. apply andb_true_iff in H as [H1 H2]. split; [apply utf8_2; lia|exact H2]. }
  destruct l as [|c l]; [discriminate|].
  destruct (a =? 224) eqn:X2. { exists [a; b; c], l. split; [reflexivity|]. apply andb_true_iff in H as [H1 H2]. split; [apply utf8_3; lia|exact H2]. }
  destruct ((225 <=? a) && (a <=? 236) || (238 <=? a) && (a <=? 239)) eqn:X3. { exists [a; b; c], l. split; [reflexivity|]. apply andb_true_iff in H as [H1 H2]. split; [apply utf8_3; lia|exact H2]. }
  destruct (a =? 237) eqn:X4. { exists [a; b; c], l. split; [reflexivity|]. apply andb_true_iff in H as [H1 H2]. split; [apply utf8_3; lia|exact H2]. }
  destruct l as [|d l]; [discriminate|].
  destruct (a =? 240) eqn:X5. { exists [a; b; c; d], l. split; [reflexivity|]. apply andb_true_iff in H as [H1 H2]. split; [apply utf8_4; lia|exact H2]. }
  destruct ((241 <=? a) && (a <=? 243)) eqn:X6. { exists [a; b; c; d], l. split; [reflexivity|]. apply andb_true_iff in H as [H1 H2]. split; [apply utf8_4; lia|exact H2]. }
  destruct (a =? 244) eqn:X7; [|discriminate]. exists [a; b; c; d], l. split; [reflexivity|]. apply andb_true_iff in H as [H1 H2]. split; [apply utf8_4; lia|exact H2].
Qed.
Lemma utf8_ind : forall P : bytes -> Prop, P [] -> (forall x r, utf8_char x -> utf8_valid r = true -> P r -> P (x ++ r)) -> forall l, utf8_valid l = true -> P l.
Proof.
  intros P H0 H1 l. remember (length l) as n eqn:Hn. revert l Hn. induction n as [n IH] using (well_founded_induction Wf_nat.lt_wf). intros l -> H.
  destruct l as [|a l]; [exact H0|]. destruct (utf8_split a l H) as (x & r & E & Hx & Hr). rewrite E. apply H1; auto. apply (IH (length r)); auto. rewrite E, app_length. destruct Hx; cbn; lia.
Qed.
Lemma utf8_app : forall a b, utf8_valid a = true -> utf8_valid b = true -> utf8_valid (a ++ b) = true.
Proof. intros a b Ha Hb. revert a Ha. apply utf8_ind; [exact Hb|]. intros x r Hx _ IH. rewrite <- app_assoc. now rewrite utf8_char_step. Qed.
Lemma utf8_wf : forall l, utf8_valid l = true -> wf_bytes l.
Proof.
  apply utf8_ind; [constructor|]. intros x r Hx _ IH. apply Forall_app. split; [|exact IH]. destruct Hx; repeat (constructor; [unfold wf_byte; lia|]); constructor.
Qed.
Lemma utf8_concat : forall l, Forall (fun x => utf8_valid x = true) l -> utf8_valid (concat l) = true.
Proof. intros l H. induction H; [reflexivity|]. now apply utf8_app. Qed.

(* C65: the tree of the parts of a mail is finite, and how large it is at most. *)
From Coq Require Import Lia Permutation.
From Verif Require Import Base Utf8 Time Address Percent MimeFields Fields Message Entity Email Combinators.
From Verif Require Import Rfc5322 Rfc2047 CodecSpec RfcFields EmailSpec MultipartSpec EntitySpec TextSpec SizeSpec Envs Post SoundMessage EmailProofs EntityProofs SizeFacts SizeMail TreeSpec GrowSpec.
Local Open Scope nat_scope.
Local Ltac lia := unfold bytes, byte in *; Lia.lia.
Local Ltac nia := unfold bytes, byte in *; Lia.nia.

Lemma ascii_app : forall a b, ascii_bytes (a ++ b) = ascii_bytes a + ascii_bytes b.
Proof. intros. unfold ascii_bytes. now rewrite filter_app, app_length. Qed.
Lemma ascii_cons : forall c r, ascii_bytes (c :: r) = ascii_bytes [c] + ascii_bytes r. Proof. intros. apply (ascii_app [c]). Qed.
Lemma ascii_len : forall l, ascii_bytes l <= length l.
Proof. intros l. unfold ascii_bytes. induction l as [|c l IH]; [apply le_n|]. cbn [filter]. destruct (c <? 128)%N; cbn [length]; lia. Qed.
Lemma alphabet_ascii : forall c v, b64_value c = Some v -> ascii_bytes [c] = 1.
Proof.
  intros c v H. unfold b64_value in H. assert (X : In c b64_alphabet).
  { revert v H. generalize b64_alphabet. intros l. induction l as [|x l IH]; intros v H; [discriminate|]. cbn in H. destruct (N.eqb_spec x c); [now left|]. destruct (N.eqb_spec c x); [now left|]. right. destruct (position c l); [eauto|discriminate]. }
  vm_compute in X. repeat (destruct X as [<-|X]; [reflexivity|]). destruct X.
Qed.
Lemma symbols_ascii : forall l, length (symbols l) <= ascii_bytes l.
Proof.
  induction l as [|c l IH]; [apply le_n|]. rewrite ascii_cons. cbn [symbols]. destruct (b64_value c) as [v|] eqn:B; [apply alphabet_ascii in B; cbn [length]; lia|].
  destruct (N.eqb_spec c 61) as [->|_]; [change (ascii_bytes [61%N]) with 1; cbn [length]; lia|lia].
Qed.
Lemma escape_ascii : forall a b, ascii_bytes (escape a b) <= 1.
Proof. intros a b. unfold escape. destruct (hex_value a); [destruct (hex_value b)|]; [apply (ascii_len [_])|cbn; lia|cbn; lia]. Qed.
Lemma qp_ascii : forall n l, length l < n -> ascii_bytes (qp_decoding l) <= ascii_bytes l.
Proof.
  induction n as [|n IH]; intros l Hn; [lia|]. destruct l as [|c r]; [apply le_n|]. cbn [length] in Hn. pose proof (IH r ltac:(lia)) as I1. rewrite (ascii_cons c r). cbn [qp_decoding].
  destruct (N.eqb_spec c 61) as [->|Hc].
  - change (ascii_bytes [61%N]) with 1. destruct r as [|a [|b r]]; [cbn; lia|rewrite ascii_cons; change (ascii_bytes [61%N]) with 1; lia|]. cbn [length] in *. pose proof (IH r ltac:(lia)) as I2. rewrite (ascii_cons a), (ascii_cons b).
    destruct ((a =? 13) && (b =? 10))%N; [lia|]. rewrite ascii_app. pose proof (escape_ascii a b). lia.
  - destruct (_ || _ || _); [rewrite (ascii_cons c); lia|]. destruct r as [|d r]; [rewrite ascii_app; change (ascii_bytes REPLACEMENT) with 0; lia|]. cbn [length] in *. pose proof (IH r ltac:(lia)) as I2.
    destruct ((c =? 13) && (d =? 10))%N eqn:Q.
    + apply andb_prop in Q as [Q1 Q2]. apply N.eqb_eq in Q1, Q2. subst c d. rewrite (ascii_cons 13), (ascii_cons 10), (ascii_cons 10 r). lia.
    + rewrite ascii_app. change (ascii_bytes REPLACEMENT) with 0. lia.
Qed.
Lemma transfer_ascii : forall enc b v, transfer_decoded enc b v -> ascii_bytes v <= ascii_bytes b.
Proof.
  intros enc b v [| | |b' v' H|b']; [lia|lia|lia| |eapply (qp_ascii (S _)); apply Nat.lt_succ_diag_r].
  pose proof (symbols_ascii b'). apply (b64_len (S (length (symbols b')))) in H; [|lia]. pose proof (ascii_len v'). lia.
Qed.
(* a measure of texts that adds up *)
Definition sums (f : bytes -> nat) (l : list bytes) : nat := list_sum (map f l).
Lemma sums_cons : forall f x l, sums f (x :: l) = f x + sums f l. Proof. reflexivity. Qed.
Lemma cut_sums : forall f b t ps, (forall x y, f (x ++ y) = f x + f y) -> f (bs "--") = 2 -> f CRLF = 2 -> cut_text b t ps -> sums f ps + 4 * length ps + 4 <= f t.
Proof.
  intros f b t ps Ha H1 H2 H. induction H as [p epi|t ps _ IH|p t ps _ IH]; rewrite ?sums_cons; unfold closing_delimiter, delimiter, dash_boundary in *; rewrite !Ha, ?H1, ?H2; cbn [length].
  - change (sums f []) with 0. lia.
  - assert (f [] = 0) by (pose proof (Ha [] []); cbn in *; lia). lia.
  - lia.
Qed.
Section Level.
Variables (E : env) (HE : env_ok E).
(* the parts of a multipart: their values have at most three times its size, and lack the ASCII of the delimiters *)
Lemma children_bound : forall r, value_bytes (children E r) <= 3 * length (e_value r) /\
  (children E r <> [] -> sums ascii_bytes (map e_value (children E r)) + 8 <= ascii_bytes (e_value r)) /\ 4 * length (children E r) <= length (e_value r).
Proof.
  intros r. unfold children. destruct (entity E r) as [x|x|x] eqn:H; [|cbn; split; [lia|split; [contradiction|lia]]..]. destruct x as [s es| |]; [|cbn; split; [lia|split; [contradiction|lia]]..].
  pose proof (sound_entity E r (ok_hash _ HE)) as S. rewrite H in S. cbn in S. inversion S as [b pre parts es' _ _ HC HP| | |]; subst. clear S H.
  pose proof (cut_sums (@length byte) b (e_value r) _ (@app_length byte) eq_refl eq_refl HC) as C1. pose proof (cut_sums ascii_bytes b (e_value r) _ ascii_app eq_refl eq_refl HC) as C2. clear HC. rewrite sums_cons in C1, C2. cbn [length] in C1, C2.
  assert (X : value_bytes es <= 3 * sums (@length byte) parts /\ sums ascii_bytes (map e_value es) <= sums ascii_bytes parts /\ length es = length parts).
  { clear C1 C2. induction HP as [|p e ps l (hs & t & (c & c' & -> & _ & R) & O) _ (I1 & I2 & I3)]; [cbn; lia|]. pose proof (of_part_value _ _ _ O) as V. pose proof (transfer_len _ _ _ V) as V1. pose proof (transfer_ascii _ _ _ V) as V2.
    cbn [map length]. rewrite !sums_cons. unfold value_bytes in *. cbn [map list_sum fold_right]. fold (list_sum (map (fun r => length (e_value r)) l)).
    assert (L : length t <= length c' /\ ascii_bytes t <= ascii_bytes c') by (destruct R as [[-> ->]| ->]; rewrite ?app_length, ?ascii_app; lia). rewrite app_length, ascii_app. lia. }
  destruct X as (X1 & X2 & X3). split; [lia|]. split; [|lia]. intros N. destruct es as [|e es]; [contradiction|]. cbn [length] in X3. lia.
Qed.
Lemma value_app : forall a b, value_bytes (a ++ b) = value_bytes a + value_bytes b. Proof. intros. unfold value_bytes. now rewrite map_app, list_sum_app. Qed.
Theorem level_bound : forall n r, value_bytes (level E n r) <= 3 ^ n * length (e_value r).
Proof.
  induction n as [|n IH]; intros r; [cbn; lia|]. cbn [level Nat.pow]. destruct (children_bound r) as (B & _). apply Nat.le_trans with (3 ^ n * value_bytes (children E r)); [|nia]. clear B.
  induction (children E r) as [|x l IL]; [cbn; lia|]. cbn [map concat]. rewrite value_app. pose proof (IH x) as I1. unfold value_bytes at 3. cbn [map list_sum fold_right]. fold (value_bytes l). unfold value_bytes in *. unfold list_sum in *. nia.
Qed.
Theorem level_end : forall n r, level E n r <> [] -> 8 * n <= ascii_bytes (e_value r).
Proof.
  induction n as [|n IH]; intros r H; [lia|]. cbn [level] in H. destruct (children_bound r) as (_ & B & _).
  assert (X : exists x, In x (children E r) /\ level E n x <> []).
  { clear B. revert H. induction (children E r) as [|x l IL]; [contradiction|]. cbn [map concat]. intros H. destruct (level E n x) eqn:L; [destruct (IL H) as (y & Y1 & Y2); exists y; split; [now right|auto]|]. exists x. split; [now left|]. rewrite L. discriminate. }
  destruct X as (x & X1 & X2). apply IH in X2. assert (Y : ascii_bytes (e_value x) <= sums ascii_bytes (map e_value (children E r))).
  { clear B H. revert X1. induction (children E r) as [|y l IL]; [intros []|]. cbn [map]. rewrite sums_cons. intros [<-|X1]; [lia|]. specialize (IL X1). lia. }
  assert (Z : children E r <> []) by (intros Z; rewrite Z in X1; destruct X1). specialize (B Z). lia.
Qed.
Theorem level_count : forall n r, 4 * length (level E (S n) r) <= 3 ^ n * length (e_value r).
Proof.
  intros n r. revert r. induction n as [|n IH]; intros r.
  - change (level E 1 r) with (concat (map (level E 0) (children E r))). destruct (children_bound r) as (_ & _ & B). assert (X : length (concat (map (level E 0) (children E r))) = length (children E r)).
    { clear B. induction (children E r) as [|x l IL]; [reflexivity|]. cbn [map concat]. rewrite app_length, IL. reflexivity. }
    rewrite X. change (3 ^ 0) with 1. lia.
  - change (level E (S (S n)) r) with (concat (map (level E (S n)) (children E r))). destruct (children_bound r) as (B & _). cbn [Nat.pow]. apply Nat.le_trans with (3 ^ n * value_bytes (children E r)); [|nia]. clear B.
    induction (children E r) as [|x l IL]; [cbn; lia|]. cbn [map concat]. rewrite app_length. pose proof (IH x) as I1. unfold value_bytes. cbn [map list_sum fold_right]. fold (list_sum (map (fun r => length (e_value r)) l)). fold (value_bytes l). nia.
Qed.
(* a mail *)
Theorem mail_levels : forall D e r, f_mime E = true -> parse E D = Ok e -> mime_entity e = Some r -> forall n,
  value_bytes (level E n r) <= 3 ^ S n * length D /\ 4 * length (level E (S n) r) <= 3 ^ S n * length D /\ (length D < 8 * n -> level E n r = []).
Proof.
  intros D e r HM H Hr n. destruct (parse_keyed E D e HE H) as (fs & b & M & _ & O). destruct M as [c fs c' b M R].
  assert (V : length (e_value r) <= 3 * length (c ++ c') /\ ascii_bytes (e_value r) <= length (c ++ c')).
  { pose proof (of_mime _ _ _ _ O) as Q. rewrite HM in Q. destruct Q as (v & Hv & Q). rewrite Hr in Q. injection Q as ->. cbn [e_value]. rewrite app_length. destruct R as [|b].
    - subst v. cbn. lia.
    - pose proof (transfer_len _ _ _ Hv) as V1. pose proof (transfer_ascii _ _ _ Hv) as V2. pose proof (ascii_len b). rewrite app_length. lia. }
  destruct V as [V1 V2]. pose proof (level_bound n r) as B1. pose proof (level_count n r) as B2. cbn [Nat.pow]. split; [nia|split; [nia|]].
  intros L. destruct (level E n r) eqn:X; [reflexivity|]. assert (Y : level E n r <> []) by (rewrite X; discriminate). apply level_end in Y. lia.
Qed.
End Level.

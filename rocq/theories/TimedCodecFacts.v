(* What the codecs cost. *)
From Coq Require Import Lia ZifyBool ZifyNat ZifyN.
From Verif Require Import Base Utf8 CharSets Combinators Base64 QuotedPrintable Charset Percent MimeFields Entity Envs Timed TimedErase TimedCodec.
Local Open Scope nat_scope.

(* ---- the same results ---- *)
Ltac erb :=
  lazymatch goal with
  | |- same (t_bind (t_step _ (Ok _)) _) _ => apply same_step_bind; erb
  | |- same (match ?o with Some _ => _ | None => _ end) _ => destruct o; erb
  | |- same (match ?o with (Some _) => _ | None => _ end) _ => destruct o; erb
  | |- same (t_bind _ _) _ => apply same_bind; [erb|let a := fresh "a" in intros a; pairs; erb]
  | |- same (if ?b then _ else _) _ => destruct b; erb
  | |- _ => first [apply same_ok|apply same_err|apply same_step|reflexivity|auto]
  end.
Lemma same_put : forall data idx, same (t_put_replacement data idx) (put_replacement data idx).
Proof. intros. unfold t_put_replacement, put_replacement. erb. Qed.
Lemma same_escape : forall E data idx, same (t_decode_escape E data idx) (decode_escape E data idx).
Proof. intros. unfold t_decode_escape, decode_escape. pose proof same_put. erb. Qed.
Lemma same_decode_qp_loop : forall E n data idx, same (t_decode_qp_loop E n data idx) (decode_qp_loop E n data idx).
Proof. intros E. pose proof same_put. pose proof (same_escape E). induction n as [|n IH]; intros data idx; [reflexivity|]. cbn [t_decode_qp_loop decode_qp_loop]. erb. Qed.
Lemma same_header_qp_loop : forall E n data idx, same (t_decode_header_qp_loop E n data idx) (decode_header_qp_loop E n data idx).
Proof. intros E. pose proof same_put. pose proof (same_escape E). induction n as [|n IH]; intros data idx; [reflexivity|]. cbn [t_decode_header_qp_loop decode_header_qp_loop]. erb. Qed.
Lemma same_encode_qp_loop : forall E n data idx line, same (t_encode_qp_loop E n data idx line) (encode_qp_loop E n data idx line).
Proof. intros E. induction n as [|n IH]; intros data idx line; [reflexivity|]. cbn [t_encode_qp_loop encode_qp_loop]. erb. Qed.
Lemma same_scan : forall R n data k i offset (stop : N -> option R), same (t_scan n data k i offset stop) (scan n data k i offset stop).
Proof. intros R. induction n as [|n IH]; intros; [reflexivity|]. cbn [t_scan scan]. erb. Qed.
Lemma same_decode_base64_loop : forall E n data i offset, same (t_decode_base64_loop E n data i offset) (decode_base64_loop E n data i offset).
Proof. intros E. pose proof same_scan. induction n as [|n IH]; intros; [reflexivity|]. cbn [t_decode_base64_loop decode_base64_loop]. erb. Qed.
Lemma list_three : forall A (P : list A -> Prop), P [] -> (forall a, P [a]) -> (forall a b, P [a; b]) -> (forall a b c l, P l -> P (a :: b :: c :: l)) -> forall l, P l.
Proof.
  intros A P H0 H1 H2 H3 l. assert (P l /\ (forall a, P (a :: l)) /\ (forall a b, P (a :: b :: l))) as [H _]; [|exact H].
  induction l as [|x l (A0 & A1 & A2)]; [auto|]. split; [apply A1|]. split; [intros a; apply A2|]. intros a b. apply H3. exact A0.
Qed.
Lemma same_encode_base64_loop : forall E data line, same (t_encode_base64_loop E data line) (encode_base64_loop E data line).
Proof.
  intros E data. pattern data. apply list_three; clear data; intros; cbn [t_encode_base64_loop encode_base64_loop]; erb.
Qed.
Lemma same_percents : forall E ps input, same (t_decode_percents E input ps) (decode_percents E input ps).
Proof.
  intros E. induction ps as [|p ps IH]; intros input; [reflexivity|]. cbn [t_decode_percents decode_percents]. apply same_bind; [|exact IH].
  unfold t_decode_percent, decode_percent. erb.
Qed.
Lemma same_parameter : forall E input charset, same (t_decode_parameter E input charset) (decode_parameter E input charset).
Proof. intros. pose proof (same_percents E). unfold t_decode_parameter, decode_parameter. destruct (find_charset charset); [|apply same_step]. apply same_step_bind. erb. Qed.
Lemma same_value : forall E v enc, same (t_decode_value E v enc) (decode_value E v enc).
Proof. intros. unfold t_decode_value, decode_value. apply same_step_bind. destruct enc; try reflexivity; [apply same_decode_qp_loop|apply same_decode_base64_loop]. Qed.

(* ---- bounds ---- *)
Definition takes {A} (m : nat) (x : timed A) (P : A -> Prop) : Prop := snd x <= m /\ (forall a, fst x = Ok a -> P a).
Lemma takes_bind : forall A B m k (x : timed A) (f : A -> timed B) P Q, takes m x P -> (forall a, P a -> takes k (f a) Q) -> takes (m + k) (t_bind x f) Q.
Proof.
  intros A B m k [[a|e|c] n] f P Q [H1 H2] K; cbn in *; [|split; [cbn; lia|discriminate]..].
  destruct (K a (H2 a eq_refl)) as [K1 K2]. split; cbn; [lia|exact K2].
Qed.
Lemma takes_ok : forall A m (a : A) (P : A -> Prop), P a -> takes m (t_ok a) P.
Proof. intros A m a P H. split; cbn; [lia|]. intros b Q. injection Q as <-. exact H. Qed.
Lemma takes_err : forall A m e (P : A -> Prop), takes m (t_err e) P.
Proof. intros. split; cbn; [lia|discriminate]. Qed.
Lemma takes_step : forall A m n (x : res A) (P : A -> Prop), n <= m -> (forall a, x = Ok a -> P a) -> takes m (t_step n x) P.
Proof. intros. split; cbn; auto. Qed.
Lemma takes_more : forall A m m' (x : timed A) (P Q : A -> Prop), takes m x P -> m <= m' -> (forall a, P a -> Q a) -> takes m' x Q.
Proof. intros A m m' x P Q [H1 H2] L I. split; [lia|auto]. Qed.
Lemma insert_length : forall l k x r, vec_insert l k x = Ok r -> length r = S (length l).
Proof. unfold vec_insert. intros l k x r. destruct (k <=? length l) eqn:K; [|discriminate]. intros H. injection H as <-. apply Nat.leb_le in K. rewrite app_length. cbn [length]. rewrite firstn_length, skipn_length. unfold bytes, byte in *. lia. Qed.
Lemma remove_length : forall (l : bytes) k x r, vec_remove l k = Ok (x, r) -> S (length r) = length l.
Proof.
  unfold vec_remove. intros l k x r. destruct (nth_error l k) eqn:K; [|discriminate]. intros H. assert (r = firstn k l ++ skipn (S k) l) as -> by congruence. pose proof (nth_error_Some l k) as [L _]. rewrite K in L. specialize (L ltac:(discriminate)).
  rewrite app_length, firstn_length, skipn_length. unfold bytes, byte in *. lia.
Qed.
Lemma set_length : forall l k x r, vec_set l k x = Ok r -> length r = length l.
Proof.
  unfold vec_set, list_update. intros l k x r. destruct (k <? length l) eqn:K; [|discriminate]. intros H. assert (r = firstn k l ++ x :: skipn (S k) l) as -> by congruence. apply Nat.ltb_lt in K. rewrite app_length. cbn [length]. rewrite firstn_length, skipn_length. unfold bytes, byte in *. lia.
Qed.
Lemma unchecked_set_length : forall l k x r, unchecked_set l k x = Ok r -> length r = length l.
Proof.
  unfold unchecked_set, list_update. intros l k x r. destruct (k <? length l) eqn:K; [|discriminate]. intros H. assert (r = firstn k l ++ x :: skipn (S k) l) as -> by congruence. apply Nat.ltb_lt in K. rewrite app_length. cbn [length]. rewrite firstn_length, skipn_length. unfold bytes, byte in *. lia.
Qed.
Lemma drain_length : forall l a b r, vec_drain l a b = Ok r -> length r <= length l.
Proof.
  unfold vec_drain. intros l a b r. destruct (a <=? b) eqn:K; [|discriminate]. destruct (b <=? length l) eqn:K'; [|discriminate]. intros H. injection H as <-. apply Nat.leb_le in K, K'. rewrite app_length, firstn_length, skipn_length. unfold bytes, byte in *. lia.
Qed.
Ltac blia := cbv beta iota in *; unfold bytes, byte in *; lia.
Lemma takes_insert : forall l k x L, length l <= L -> takes (S L) (t_insert l k x) (fun r => length r <= S L).
Proof. intros l k x L H. apply takes_step; [blia|]. intros r R. apply insert_length in R. blia. Qed.
Lemma takes_remove : forall l k L, length l <= S L -> takes (S L) (t_remove l k) (fun '(_, r) => length r <= L).
Proof. intros l k L H. apply takes_step; [blia|]. intros [x r] R. apply remove_length in R. unfold bytes, byte in *. blia. Qed.
Lemma takes_put : forall data idx L, length data <= L -> takes (2 * L + 3) (t_put_replacement data idx) (fun r => length r <= L + 2).
Proof.
  intros data idx L H. unfold t_put_replacement. replace (2 * L + 3) with (0 + (S L + S (S L))) by blia.
  eapply takes_bind; [apply (takes_step _ _ _ _ (fun r => length r <= L)); [blia|]; intros a Q; apply set_length in Q; blia|]. intros a A.
  eapply takes_bind; [apply takes_insert; exact A|]. intros b B. cbv beta in B. eapply takes_more; [apply (takes_insert _ _ _ (S L)); exact B|blia|]. cbv beta. intros; blia.
Qed.
Lemma takes_escape : forall E data idx L, length data <= L -> takes (4 * L + 3) (t_decode_escape E data idx) (fun '(r, _) => length r <= L + 2).
Proof.
  intros E data idx L H. unfold t_decode_escape. destruct (_ && _).
  - replace (4 * L + 3) with (L + (3 * L + 3)) by blia. eapply takes_bind; [apply (takes_step _ _ _ _ (fun r => length r <= L)); [blia|]; intros a Q; apply drain_length in Q; blia|]. intros a A. apply takes_ok. blia.
  - destruct (idx + 2 <? length data) eqn:K; [|apply takes_ok; blia]. apply Nat.ltb_lt in K. destruct L as [|[|L]]; [blia|blia|]. eapply takes_more; [|shelve|].
    + eapply takes_bind; [apply takes_remove; exact H|]. intros [x a] A. eapply takes_bind; [apply takes_remove; exact A|]. intros [y b] B.
      assert (takes (2 * L + 3) (let+ r := t_put_replacement b idx in t_ok (r, idx + 3)) (fun '(r, _) => length r <= S (S L) + 2)) as HP.
      { replace (2 * L + 3) with (2 * L + 3 + 0) by blia. eapply takes_bind; [apply takes_put; exact B|]. cbv beta. intros r R. apply takes_ok. blia. }
      destruct (from_hex x); [|exact HP]. destruct (from_hex y); [|exact HP]. eapply takes_more; [|shelve|intros z Z; exact Z].
      eapply takes_bind; [apply (takes_step _ 0 _ _ (fun _ => True)); auto|]. intros t _. eapply takes_bind; [apply (takes_step _ 0 _ _ (fun _ => True)); auto|]. intros v _.
      eapply takes_bind; [apply (takes_step _ 0 _ _ (fun r => length r <= L)); [blia|]; intros r Q; apply set_length in Q; blia|]. intros r R. apply (takes_ok _ 0). blia.
    + intros [r k] R. exact R. Unshelve. all: blia.
Qed.
Lemma turn : forall n L K, K + n * (4 * (L + 2 + 2 * n) + 4) <= K + S n * (4 * (L + 2 * S n) + 4) - (4 * L + 4).
Proof. intros. nia. Qed.
Lemma takes_qp_loop : forall E n data idx L, length data <= L -> takes (n * (4 * (L + 2 * n) + 4)) (t_decode_qp_loop E n data idx) (fun _ => True).
Proof.
  intros E. induction n as [|n IH]; intros data idx L H; [split; [cbn; blia|trivial]|]. cbn [t_decode_qp_loop].
  eapply (takes_more _ (1 + (4 * L + 3 + n * (4 * (L + 2 + 2 * n) + 4)))); [|nia|trivial]. eapply takes_bind; [apply (takes_step _ _ _ _ (fun _ => True)); auto|]. intros _ _.
  assert (forall idx, takes (4 * L + 3 + n * (4 * (L + 2 + 2 * n) + 4)) (t_decode_qp_loop E n data idx) (fun _ => True)) as J.
  { intros j. eapply takes_more; [apply IH; exact H|nia|trivial]. }
  destruct (nth_error data idx) as [b|]; [|apply takes_ok; exact I]. destruct (_ || _); [apply J|]. destruct (b =? 61)%N.
  - eapply takes_bind; [apply takes_escape; exact H|]. intros [d k] D. apply IH. exact D.
  - destruct (_ && _); [apply J|]. eapply takes_more; [eapply takes_bind; [apply takes_put; exact H|]; intros d D; apply IH; exact D|blia|trivial].
Qed.
Lemma takes_header_qp_loop : forall E n data idx L, length data <= L -> takes (n * (4 * (L + 2 * n) + 4)) (t_decode_header_qp_loop E n data idx) (fun _ => True).
Proof.
  intros E. induction n as [|n IH]; intros data idx L H; [split; [cbn; blia|trivial]|]. cbn [t_decode_header_qp_loop].
  eapply (takes_more _ (1 + (4 * L + 3 + n * (4 * (L + 2 + 2 * n) + 4)))); [|nia|trivial]. eapply takes_bind; [apply (takes_step _ _ _ _ (fun _ => True)); auto|]. intros _ _.
  assert (forall idx d, length d <= L -> takes (4 * L + 3 + n * (4 * (L + 2 + 2 * n) + 4)) (t_decode_header_qp_loop E n d idx) (fun _ => True)) as J.
  { intros j d D. eapply takes_more; [apply IH; exact D|nia|trivial]. }
  destruct (nth_error data idx) as [b|]; [|apply takes_ok; exact I]. destruct (b =? 95)%N.
  { apply (takes_bind _ _ 0 _ _ _ (fun r => length r <= L)); [apply takes_step; [blia|]; intros r Q; apply set_length in Q; blia|]. intros r R. apply J. exact R. }
  destruct (b =? 61)%N.
  - eapply takes_bind; [apply takes_escape; exact H|]. intros [d k] D. apply IH. exact D.
  - destruct (_ && _); [apply J; exact H|]. eapply takes_more; [eapply takes_bind; [apply takes_put; exact H|]; intros d D; apply IH; exact D|blia|trivial].
Qed.
Lemma takes_encode_loop : forall E n data idx line L, length data <= L -> takes (n * (7 * (L + 5 * n) + 22)) (t_encode_qp_loop E n data idx line) (fun _ => True).
Proof.
  intros E. induction n as [|n IH]; intros data idx line L H; [split; [cbn; blia|trivial]|]. cbn [t_encode_qp_loop].
  eapply (takes_more _ (1 + ((3 * L + 6) + (4 * L + 15 + n * (7 * (L + 5 + 5 * n) + 22))))); [|nia|trivial]. eapply takes_bind; [apply (takes_step _ _ _ _ (fun _ => True)); auto|]. intros _ _.
  destruct (nth_error data idx) as [b|]; [|apply takes_ok; exact I].
  apply (takes_bind _ _ _ _ _ _ (fun '(d, _, _) => length d <= L + 3)).
  { destruct (72 <=? line); [|apply takes_ok; blia]. replace (3 * L + 6) with (S L + (S (S L) + (S (S (S L)) + 0))) by blia.
    eapply takes_bind; [apply takes_insert; exact H|]. intros d1 D1. eapply takes_bind; [apply takes_insert; exact D1|]. intros d2 D2. eapply takes_bind; [apply takes_insert; exact D2|]. intros d3 D3. apply takes_ok. blia. }
  clear H data idx line. intros [[data idx] line] H.
  assert (forall idx line, takes (4 * L + 15 + n * (7 * (L + 5 + 5 * n) + 22)) (t_encode_qp_loop E n data idx line) (fun _ => True)) as J.
  { intros j l. eapply takes_more; [apply IH; exact H|nia|trivial]. }
  destruct (litteral_repr_possible b); [apply J|]. destruct (_ && _); [apply J|]. destruct (_ && _); [apply J|].
  eapply (takes_more _ (S (L + 2) + (0 + (S (L + 2) + (0 + (0 + (S (S (L + 2)) + (S (S (S (L + 2))) + n * (7 * (L + 5 + 5 * n) + 22))))))))); [|blia|trivial].
  eapply takes_bind; [apply takes_remove; blia|]. intros [x d1] D1.
  eapply takes_bind; [apply (takes_step _ _ _ _ (fun _ => True)); auto|]. intros lo _. eapply takes_bind; [apply takes_insert; exact D1|]. intros d2 D2.
  eapply takes_bind; [apply (takes_step _ _ _ _ (fun _ => True)); auto|]. intros d _. eapply takes_bind; [apply (takes_step _ _ _ _ (fun _ => True)); auto|]. intros hi _.
  eapply takes_bind; [apply takes_insert; exact D2|]. intros d3 D3. eapply takes_bind; [apply takes_insert; exact D3|]. intros d4 D4. apply IH. cbv beta in D4. blia.
Qed.
Theorem decode_qp_cost : forall E d, fst (t_decode_qp E d) = decode_qp E d /\ snd (t_decode_qp E d) <= 12 * (S (length d) * S (length d)).
Proof. intros E d. split; [apply same_decode_qp_loop|]. destruct (takes_qp_loop E (S (length d)) d 0 (length d) (le_n _)) as [H _]. unfold t_decode_qp. nia. Qed.
Theorem decode_header_qp_cost : forall E d, fst (t_decode_header_qp E d) = decode_header_qp E d /\ snd (t_decode_header_qp E d) <= 12 * (S (length d) * S (length d)).
Proof. intros E d. split; [apply same_header_qp_loop|]. destruct (takes_header_qp_loop E (S (length d)) d 0 (length d) (le_n _)) as [H _]. unfold t_decode_header_qp. nia. Qed.
Theorem encode_qp_cost : forall E d, fst (t_encode_qp E d) = encode_qp E d /\ snd (t_encode_qp E d) <= 57 * (S (length d) * S (length d)).
Proof. intros E d. split; [apply same_encode_qp_loop|]. destruct (takes_encode_loop E (S (length d)) d 0 0 (length d) (le_n _)) as [H _]. unfold t_encode_qp. nia. Qed.

(* ---- percent encoding ---- *)
Lemma takes_percent : forall E d p L, length d <= L -> takes (2 * L + 1) (t_decode_percent E d p) (fun r => length r <= L).
Proof.
  intros E d p L H. unfold t_decode_percent. replace (2 * L + 1) with (1 + 2 * L) by blia. eapply takes_bind; [apply (takes_step _ _ _ _ (fun _ => True)); auto|]. intros _ _.
  assert (takes (2 * L) (t_ok d) (fun r => length r <= L)) as J by (apply takes_ok; exact H).
  destruct (nth_error d (p + 1)) as [a|]; [|exact J]. destruct (nth_error d (p + 2)) as [b|] eqn:B; [|exact J]. destruct (from_hex a) as [x|]; [|exact J]. destruct (from_hex b) as [y|]; [|exact J].
  assert (2 <= L). { assert (p + 2 < length d) by (apply nth_error_Some; rewrite B; discriminate). blia. } destruct L as [|[|L]]; [blia|blia|].
  eapply (takes_more _ (0 + (0 + (0 + (S (S L) + (S L + 0)))))); [|blia|intros z Z; exact Z].
  eapply takes_bind; [apply (takes_step _ _ _ _ (fun _ => True)); auto|]. intros t _. eapply takes_bind; [apply (takes_step _ _ _ _ (fun _ => True)); auto|]. intros v _.
  eapply takes_bind; [apply (takes_step _ 0 _ _ (fun r => length r <= S (S L))); [blia|]; intros r Q; apply unchecked_set_length in Q; blia|]. intros r R.
  eapply takes_bind; [apply takes_remove; exact R|]. intros [z r1] R1. eapply takes_bind; [apply takes_remove; exact R1|]. intros [w r2] R2. apply takes_ok. blia.
Qed.
Lemma takes_percents : forall E ps d L, length d <= L -> takes (length ps * (2 * L + 1)) (t_decode_percents E d ps) (fun r => length r <= L).
Proof.
  intros E. induction ps as [|p ps IH]; intros d L H; [apply takes_ok; exact H|]. cbn [t_decode_percents length Nat.mul]. eapply takes_bind; [apply takes_percent; exact H|]. intros r R. now apply IH.
Qed.
Lemma percents_length : forall d k, length (percents_from k d) <= length d.
Proof. induction d as [|c d IH]; intros k; [apply le_n|]. cbn [percents_from length]. specialize (IH (S k)). destruct (c =? 37)%N; cbn [length]; unfold bytes, byte in *; blia. Qed.
Theorem decode_parameter_cost : forall E d charset, fst (t_decode_parameter E d charset) = decode_parameter E d charset /\ snd (t_decode_parameter E d charset) <= 4 * (S (length d) * S (length d)).
Proof.
  intros E d charset. split; [apply same_parameter|].
  assert (takes (4 * (S (length d) * S (length d))) (t_decode_parameter E d charset) (fun _ => True)) as [H _]; [|exact H].
  unfold t_decode_parameter. destruct (find_charset charset) as [k|]; [|apply takes_step; [cbn; blia|trivial]].
  pose proof (percents_length d 0) as P. eapply (takes_more _ (S (length d) + (length (rev (percents_from 0 d)) * (2 * length d + 1) + S (length d)))); [|rewrite rev_length; nia|trivial].
  eapply takes_bind; [apply (takes_step _ _ _ _ (fun l => l = percents_from 0 d)); [blia|]; intros a A; now injection A|]. intros l ->.
  eapply takes_bind; [apply takes_percents; apply le_n|]. intros r R. apply (takes_step _ _ _ _ (fun _ => True)); [blia|trivial].
Qed.

(* ---- base64 ---- *)
Lemma scan_cost : forall R n data k i offset (stop : N -> option R), i + k <= length data -> snd (t_scan n data k i offset stop) <= S (length data - i) /\
  (forall j f o, fst (t_scan n data k i offset stop) = Ok (j, f, o) -> snd (t_scan n data k i offset stop) <= S (j - i) /\ i <= j <= length data /\ (o <> None -> j + k < length data)).
Proof.
  intros R. induction n as [|n IH]; intros data k i offset stop H; [split; [cbn; lia|discriminate]|].
  cbn [t_scan]. change (t_bind (t_step 1 (Ok tt)) ?f) with (fst (f tt), S (snd (f tt))). cbv beta.
  destruct (nth_error data (i + k)) as [b|] eqn:B.
  - assert (i + k < length data) as L by (apply nth_error_Some; rewrite B; discriminate).
    destruct (stop b) as [r|] eqn:Q.
    + cbn [fst snd t_ok]. split; [lia|]. intros j f o A. injection A as <- <- <-. split; [lia|]. split; [lia|auto].
    + destruct (IH data k (S i) (S offset) stop ltac:(lia)) as [J1 J2]. split; cbn [fst snd]; [lia|].
      intros j f o A. destruct (J2 _ _ _ A) as (J3 & J4 & J5). split; [lia|]. split; [lia|exact J5].
  - cbn [fst snd t_ok]. split; [lia|]. intros j f o A. injection A as <- <- <-. split; [lia|]. split; [lia|congruence].
Qed.
Ltac scanned j f o H1 H2 H3 := match goal with
  | |- snd (t_bind (t_scan ?n ?d ?k ?i ?g ?st) _) <= _ =>
    let J := fresh in let J' := fresh in let Q := fresh in
    destruct (scan_cost _ n d k i g st ltac:(lia)) as [J J'];
    destruct (t_scan n d k i g st) as [[[[j f] o]|?|?] ?] eqn:Q; [|cbn [t_bind fst snd] in *; lia..];
    destruct (J' _ _ _ eq_refl) as (H1 & H2 & H3); clear J J' Q; cbn [snd] in H1; unfold t_bind at 1; cbn [fst snd];
    match goal with |- ?n + ?x <= ?m => enough (x <= m - n) by lia end
  end.
Lemma free : forall A B (x : res A) (f : A -> timed B) m, (forall a, x = Ok a -> snd (f a) <= m) -> snd (t_bind (t_step 0 x) f) <= m.
Proof. intros A B [a|e|c] f m H; cbn; [apply H; reflexivity|lia|lia]. Qed.
Lemma single : forall A B (x : res A) (f : A -> timed B) m, (forall a, x = Ok a -> snd (f a) <= m) -> snd (t_bind (t_step 1 x) f) <= S m.
Proof. intros A B [a|e|c] f m H; cbn; [specialize (H a eq_refl); lia|lia|lia]. Qed.
Lemma base64_loop_cost : forall E n data i offset, i <= length data -> snd (t_decode_base64_loop E n data i offset) <= 8 * (length data - i) + 8.
Proof.
  intros E. induction n as [|n IH]; intros data i offset H; [cbn; lia|]. cbn [t_decode_base64_loop].
  scanned i1 f1 o1 A1 A2 A3. destruct o1 as [b1|]; [|apply free; intros; cbn; lia]. specialize (A3 ltac:(discriminate)).
  scanned i2 f2 o2 B1 B2 B3. destruct o2 as [b2|]; [|cbn; lia]. specialize (B3 ltac:(discriminate)).
  scanned i3 f3 o3 C1 C2 C3. destruct o3 as [b3|]; [|cbn; lia]. specialize (C3 ltac:(discriminate)).
  scanned i4 f4 o4 D1 D2 D3. destruct o4 as [b4|]; [|cbn; lia]. specialize (D3 ltac:(discriminate)).
  apply free. intros c4 _. apply free. intros p _. apply free. intros v _.
  match goal with |- _ <= ?m => enough (S (2 + (8 * (length data - (i4 + 4)) + 8)) <= m) as M; [eapply Nat.le_trans; [apply single|exact M]|lia] end.
  intros d1 Q1. apply unchecked_set_length in Q1.
  assert (forall d o, length d = length data -> snd (t_decode_base64_loop E n d (i4 + 4) (o + 1)) <= 8 * (length data - (i4 + 4)) + 8) as J.
  { intros d o L. rewrite <- L. apply IH. lia. }
  destruct b3 as [b3|]; [|cbn; specialize (J d1 (f4 + 2) Q1); lia].
  apply (Nat.le_trans _ (S (S (8 * (length data - (i4 + 4)) + 8)))); [|lia].
  assert (forall (x : timed (bytes * nat)) m, takes m x (fun '(d, _) => length d = length data) -> snd (let+ (data0, offset0) := x in t_decode_base64_loop E n data0 (i4 + 4) (offset0 + 1)) <= m + (8 * (length data - (i4 + 4)) + 8)) as JJ.
  { intros x m X. assert (takes (m + (8 * (length data - (i4 + 4)) + 8)) (let+ (data0, offset0) := x in t_decode_base64_loop E n data0 (i4 + 4) (offset0 + 1)) (fun _ => True)) as [R _]; [|exact R].
    eapply takes_bind; [exact X|]. intros [d o] L. split; [apply J; exact L|trivial]. }
  apply (JJ _ 2). clear JJ J. eapply (takes_bind _ _ 0 2); [apply (takes_step _ _ _ _ (fun _ => True)); auto|]. intros q _. eapply (takes_bind _ _ 0 2); [apply (takes_step _ _ _ _ (fun _ => True)); auto|]. intros w _.
  eapply (takes_bind _ _ 1 1); [apply (takes_step _ _ _ _ (fun d => length d = length data)); [apply le_n|]; intros a Q; apply unchecked_set_length in Q; exact (eq_trans Q Q1)|]. intros d2 Q2.
  destruct c4 as [c4|]; [|apply takes_ok; exact Q2].
  eapply (takes_bind _ _ 0 1); [apply (takes_step _ _ _ _ (fun _ => True)); auto|]. intros q' _. eapply (takes_bind _ _ 0 1); [apply (takes_step _ _ _ _ (fun _ => True)); auto|]. intros w' _.
  eapply (takes_bind _ _ 1 0); [apply (takes_step _ _ _ _ (fun d => length d = length data)); [apply le_n|]; intros a Q; apply unchecked_set_length in Q; exact (eq_trans Q Q2)|]. intros d3 Q3. apply takes_ok. exact Q3.
Qed.
Theorem decode_base64_cost : forall E d, fst (t_decode_base64 E d) = decode_base64 E d /\ snd (t_decode_base64 E d) <= 8 * S (length d).
Proof. intros E d. split; [apply same_decode_base64_loop|]. unfold t_decode_base64. pose proof (base64_loop_cost E (S (length d)) d 0 0 ltac:(lia)). lia. Qed.
Lemma encode_base64_loop_cost : forall E d line, snd (t_encode_base64_loop E d line) <= 7 * length d + 1.
Proof.
  intros E d. pattern d. apply list_three; clear d.
  - intros line. cbn. lia.
  - intros a line. cbn [t_encode_base64_loop]. change (t_bind (t_step 7 (Ok tt)) ?f) with (fst (f tt), 7 + snd (f tt)). cbn [snd length]. match goal with |- 7 + ?x <= _ => enough (x <= 0) by lia end.
    apply free. intros. apply free. intros. cbn. lia.
  - intros a b line. cbn [t_encode_base64_loop]. change (t_bind (t_step 7 (Ok tt)) ?f) with (fst (f tt), 7 + snd (f tt)). cbn [snd length]. match goal with |- 7 + ?x <= _ => enough (x <= 0) by lia end.
    repeat (apply free; intros). cbn. lia.
  - intros a b c l IH line. cbn [t_encode_base64_loop]. change (t_bind (t_step 7 (Ok tt)) ?f) with (fst (f tt), 7 + snd (f tt)). cbn [snd length]. match goal with |- 7 + ?x <= _ => enough (x <= 7 * length l + 1) by lia end.
    do 6 (apply free; intros). match goal with |- snd (t_bind (t_encode_base64_loop _ _ ?n) _) <= _ => specialize (IH n); destruct (t_encode_base64_loop E l n) as [[r|e|x] k]; cbn in *; lia end.
Qed.
Theorem encode_base64_cost : forall E d, fst (t_encode_base64 E d) = encode_base64 E d /\ snd (t_encode_base64 E d) <= 7 * S (length d).
Proof. intros E d. split; [apply same_encode_base64_loop|]. unfold t_encode_base64. pose proof (encode_base64_loop_cost E d 0). lia. Qed.
Theorem decode_value_cost : forall E v enc, fst (t_decode_value E v enc) = decode_value E v enc /\ snd (t_decode_value E v enc) <= 13 * (S (length v) * S (length v)) /\ (enc <> QuotedPrintableEnc -> snd (t_decode_value E v enc) <= 9 * S (length v)).
Proof.
  intros E v enc. split; [apply same_value|]. unfold t_decode_value. change (t_bind (t_step 1 (Ok tt)) ?f) with (fst (f tt), 1 + snd (f tt)). cbn [snd].
  destruct (decode_qp_cost E v) as [_ Q]. destruct (decode_base64_cost E v) as [_ B]. destruct enc; cbn [t_ok t_err snd]; split; intros; try nia. congruence.
Qed.

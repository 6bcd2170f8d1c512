(* What the codecs cost at least: the loops that insert and remove bytes are not linear. *)
From Coq Require Import Lia ZifyBool ZifyNat ZifyN.
From Verif Require Import Base Utf8 CharSets Combinators Base64 QuotedPrintable Charset Percent MimeFields Entity Envs CodecArith CodecSpec Base64Proofs QPProofs Post Timed TimedErase TimedCodec TimedCodecFacts.
Local Open Scope nat_scope.

(* n times a text *)
Definition times (n : nat) (t : bytes) : bytes := concat (repeat t n).
Lemma times_S : forall n t, times (S n) t = t ++ times n t.
Proof. reflexivity. Qed.
Lemma times_snoc : forall n t, times (S n) t = times n t ++ t.
Proof. induction n as [|n IH]; intros t; [unfold times; cbn; now rewrite app_nil_r|]. rewrite times_S, IH at 1. rewrite times_S. now rewrite <- app_assoc. Qed.
Lemma times_length : forall n t, length (times n t) = n * length t.
Proof. induction n as [|n IH]; intros t; [reflexivity|]. rewrite times_S, app_length, IH. reflexivity. Qed.
Lemma bind_low : forall A B (x : timed A) (f : A -> timed B) a m k, fst x = Ok a -> m <= snd x -> k <= snd (f a) -> m + k <= snd (t_bind x f).
Proof. intros A B [[b|e|c] n] f a m k H M K; cbn in *; try discriminate. injection H as ->. blia. Qed.
Lemma remove_at : forall (a : bytes) x b, fst (t_remove (a ++ x :: b) (length a)) = Ok (x, a ++ b) /\ snd (t_remove (a ++ x :: b) (length a)) = S (length b).
Proof. intros. unfold t_remove, t_step. cbn [fst snd]. rewrite vec_remove_at. split; [reflexivity|]. rewrite app_length. cbn [length]. unfold bytes, byte in *. blia. Qed.
Lemma insert_at : forall (a : bytes) x b, fst (t_insert (a ++ b) (length a) x) = Ok (a ++ x :: b) /\ snd (t_insert (a ++ b) (length a) x) = S (length b).
Proof. intros. unfold t_insert, t_step. cbn [fst snd]. rewrite vec_insert_at. split; [reflexivity|]. rewrite app_length. unfold bytes, byte in *. blia. Qed.
(* an escape in front of m bytes *)
Lemma escape_low : forall E d t, fst (t_decode_escape E (d ++ 61%N :: 52%N :: 49%N :: t) (length d)) = Ok (d ++ 65%N :: t, length (d ++ [65%N])) /\ 2 * length t <= snd (t_decode_escape E (d ++ 61%N :: 52%N :: 49%N :: t) (length d)).
Proof.
  intros E d t. split.
  - rewrite same_escape, decode_escape_spec. change ((52 =? 13)%N && (49 =? 10)%N) with false. cbv iota. change (escape 52 49) with [65%N]. rewrite app_length. reflexivity.
  - unfold t_decode_escape. rewrite !get_is_at. unfold get_is. cbn [nth_error]. change ((52 =? 13)%N && (49 =? 10)%N) with false. cbv iota.
    rewrite app_length. cbn [length]. destruct (Nat.ltb_spec (length d + 2) (length d + S (S (S (length t))))); [|blia].
    replace (d ++ 61%N :: 52%N :: 49%N :: t) with ((d ++ [61%N]) ++ 52%N :: 49%N :: t) by (rewrite <- app_assoc; reflexivity).
    replace (length d + 1) with (length (d ++ [61%N])) by (rewrite app_length; cbn; blia).
    destruct (remove_at (d ++ [61%N]) 52%N (49%N :: t)) as [F1 S1]. destruct (remove_at (d ++ [61%N]) 49%N t) as [F2 S2].
    replace (2 * length t) with (length t + (length t + 0)) by blia. eapply bind_low; [exact F1|rewrite S1; cbn [length]; blia|]. cbv beta iota. eapply bind_low; [exact F2|rewrite S2; blia|]. blia.
Qed.
Lemma qp_low : forall E m n d, m < n -> fst (t_decode_qp_loop E n (d ++ times m (bs "=41")) (length d)) = Ok (d ++ repeat 65%N m) /\ m * m <= snd (t_decode_qp_loop E n (d ++ times m (bs "=41")) (length d)).
Proof.
  intros E. induction m as [|m IH]; intros n d H; (destruct n as [|n]; [blia|]); cbn [t_decode_qp_loop]; rewrite nth_error_at0.
  - cbn [nth_error times repeat concat t_ok]. rewrite app_nil_r. split; [reflexivity|blia].
  - rewrite times_S. change (bs "=41" ++ times m (bs "=41")) with (61%N :: 52%N :: 49%N :: times m (bs "=41")). cbn [nth_error]. change (litteral_repr_possible 61 || (61 =? 32)%N || (61 =? 9)%N) with false. change (61 =? 61)%N with true. cbv iota.
    destruct (escape_low E d (times m (bs "=41"))) as [F L]. rewrite times_length in L. change (length (bs "=41")) with 3 in L.
    replace (d ++ 65%N :: times m (bs "=41")) with ((d ++ [65%N]) ++ times m (bs "=41")) in F by (rewrite <- app_assoc; reflexivity).
    specialize (IH n (d ++ [65%N]) ltac:(lia)). destruct IH as [I1 I2]. change (t_bind (t_step 1 (Ok tt)) ?f) with (fst (f tt), 1 + snd (f tt)). cbn [fst snd].
    destruct (t_decode_escape E (d ++ 61%N :: 52%N :: 49%N :: times m (bs "=41")) (length d)) as [x k]. cbn [fst snd] in F, L. subst x. cbn [t_bind fst snd]. split; [|blia].
    etransitivity; [exact I1|]. rewrite <- app_assoc. reflexivity.
Qed.
Lemma header_qp_low : forall E m n d, m < n -> fst (t_decode_header_qp_loop E n (d ++ times m (bs "=41")) (length d)) = Ok (d ++ repeat 65%N m) /\ m * m <= snd (t_decode_header_qp_loop E n (d ++ times m (bs "=41")) (length d)).
Proof.
  intros E. induction m as [|m IH]; intros n d H; (destruct n as [|n]; [blia|]); cbn [t_decode_header_qp_loop]; rewrite nth_error_at0.
  - cbn [nth_error times repeat concat t_ok]. rewrite app_nil_r. split; [reflexivity|blia].
  - rewrite times_S. change (bs "=41" ++ times m (bs "=41")) with (61%N :: 52%N :: 49%N :: times m (bs "=41")). cbn [nth_error]. change (61 =? 95)%N with false. change (61 =? 61)%N with true. cbv iota.
    destruct (escape_low E d (times m (bs "=41"))) as [F L]. rewrite times_length in L. change (length (bs "=41")) with 3 in L.
    replace (d ++ 65%N :: times m (bs "=41")) with ((d ++ [65%N]) ++ times m (bs "=41")) in F by (rewrite <- app_assoc; reflexivity).
    specialize (IH n (d ++ [65%N]) ltac:(lia)). destruct IH as [I1 I2]. change (t_bind (t_step 1 (Ok tt)) ?f) with (fst (f tt), 1 + snd (f tt)). cbn [fst snd].
    destruct (t_decode_escape E (d ++ 61%N :: 52%N :: 49%N :: times m (bs "=41")) (length d)) as [x k]. cbn [fst snd] in F, L. subst x. cbn [t_bind fst snd]. split; [|blia].
    etransitivity; [exact I1|]. rewrite <- app_assoc. reflexivity.
Qed.
(* m bytes that need an escape *)
Lemma encode_low : forall E m n d line, m < n -> m * m <= snd (t_encode_qp_loop E n (d ++ repeat 195%N m) (length d) line).
Proof.
  intros E. induction m as [|m IH]; intros n d line H; (destruct n as [|n]; [blia|]); [blia|]. cbn [t_encode_qp_loop]. rewrite nth_error_at0. cbn [repeat nth_error].
  change (t_bind (t_step 1 (Ok tt)) ?f) with (fst (f tt), 1 + snd (f tt)). cbn [snd]. match goal with |- _ <= 1 + snd (t_bind ?x ?f) => assert (exists d' l' k, x = (Ok (d' ++ 195%N :: repeat 195%N m, length d', l'), k)) as (d' & l' & k & ->) end.
  { destruct (72 <=? line); [|eexists d, line, 0; reflexivity]. exists (d ++ [61; 13; 10]%N), 0. unfold t_insert, t_step. rewrite vec_insert_at. cbn [t_bind fst snd]. rewrite vec_insert_at. cbn [t_bind fst snd]. rewrite vec_insert_at. cbn [t_bind fst snd t_ok].
    rewrite (app_length d [61; 13; 10]%N). eexists. rewrite <- app_assoc. cbn [app]. reflexivity. }
  cbn [t_bind fst snd]. change (litteral_repr_possible 195) with false. change ((195 =? 9)%N || (195 =? 32)%N) with false. change (195 =? 13)%N with false. cbn [andb]. clear d line.
  change (195 mod 16)%N with 3%N. destruct (remove_at d' 195%N (repeat 195%N m)) as [F1 S1].
  match goal with |- _ <= 1 + (k + ?x) => enough (2 * m + m * m <= x) by blia end.
  replace (2 * m + m * m) with (m + (0 + (m + (0 + (0 + (0 + (0 + m * m))))))) by blia.
  eapply bind_low; [exact F1|rewrite S1, repeat_length; blia|]. cbv beta iota. apply (bind_low _ _ _ _ 51%N); [reflexivity|blia|]. cbv beta. destruct (insert_at d' 51 (repeat 195%N m)) as [F2 S2].
  eapply bind_low; [exact F2|rewrite S2, repeat_length; blia|]. apply (bind_low _ _ _ _ 192%N); [reflexivity|blia|]. apply (bind_low _ _ _ _ 67%N); [reflexivity|blia|].
  match goal with |- context [t_insert ?l (length d') ?x] => destruct (insert_at d' x (51%N :: repeat 195%N m)) as [F3 S3] end.
  eapply bind_low; [exact F3|blia|]. match goal with |- context [t_insert (d' ++ ?l) (length d') ?x] => destruct (insert_at d' x l) as [F4 S4] end.
  eapply bind_low; [exact F4|blia|].
  match goal with |- context [t_encode_qp_loop E n (d' ++ 61%N :: ?a :: ?b :: _) _ ?l] => replace (d' ++ 61%N :: a :: b :: repeat 195%N m) with ((d' ++ [61%N; a; b]) ++ repeat 195%N m) by (rewrite <- app_assoc; reflexivity); replace (length d' + 3) with (length (d' ++ [61%N; a; b])) by (rewrite app_length; reflexivity) end.
  apply IH. blia.
Qed.
(* m escapes in front of the bytes already decoded *)
Lemma percents_app : forall a b k, percents_from k (a ++ b) = percents_from k a ++ percents_from (k + length a) b.
Proof. induction a as [|c a IH]; intros b k; [cbn; now rewrite Nat.add_0_r|]. cbn [app percents_from length]. rewrite IH. replace (S k + length a) with (k + S (length a)) by blia. now destruct (c =? 37)%N. Qed.
Lemma percent_low : forall E d t, fst (t_decode_percent E (d ++ 37%N :: 52%N :: 49%N :: t) (length d)) = Ok (d ++ 65%N :: t) /\ 2 * length t + 3 <= snd (t_decode_percent E (d ++ 37%N :: 52%N :: 49%N :: t) (length d)).
Proof.
  intros E d t. unfold t_decode_percent. rewrite !nth_error_at. cbn [nth_error]. change (from_hex 52) with (Some 4%N). change (from_hex 49) with (Some 1%N). cbv iota.
  change (u8_mul E 4 16) with (@Ok N 64%N). cbn [t_bind t_step fst snd]. change (u8_add E 64 1) with (@Ok N 65%N). cbn [t_bind t_step fst snd].
  assert (unchecked_set (d ++ 37%N :: 52%N :: 49%N :: t) (length d) 65%N = Ok (d ++ 65%N :: 52%N :: 49%N :: t)) as ->.
  { pose proof (vec_set_at d (52%N :: 49%N :: t) 37%N 65%N) as V. unfold vec_set in V. unfold unchecked_set. destruct (length d <? length (d ++ 37%N :: 52%N :: 49%N :: t)); [exact V|discriminate]. }
  cbn [t_bind fst snd].
  destruct (remove_at (d ++ [65; 52]%N) 49%N t) as [F1 S1]. rewrite <- app_assoc in F1, S1. rewrite app_length in F1, S1. cbn [app length] in F1, S1.
  destruct (t_remove (d ++ 65%N :: 52%N :: 49%N :: t) (length d + 2)) as [x k]. cbn [fst snd] in F1, S1. subst x k. cbn [t_bind fst snd]. rewrite <- app_assoc. cbn [app].
  destruct (remove_at (d ++ [65]%N) 52%N t) as [F2 S2]. rewrite <- app_assoc in F2, S2. rewrite app_length in F2, S2. cbn [app length] in F2, S2.
  destruct (t_remove (d ++ 65%N :: 52%N :: t) (length d + 1)) as [x k]. cbn [fst snd] in F2, S2. subst x k. cbn [t_bind fst snd t_ok]. rewrite <- app_assoc. cbn [app]. split; [reflexivity|blia].
Qed.
Lemma percents_low : forall E m t, fst (t_decode_percents E (times m (bs "%41") ++ t) (rev (percents_from 0 (times m (bs "%41"))))) = Ok (repeat 65%N m ++ t) /\ 2 * (m * length t) + m * m <= snd (t_decode_percents E (times m (bs "%41") ++ t) (rev (percents_from 0 (times m (bs "%41"))))).
Proof.
  intros E. induction m as [|m IH]; intros t; [split; [reflexivity|cbn; blia]|].
  rewrite times_snoc, percents_app, rev_app_distr. change (percents_from (0 + length (times m (bs "%41"))) (bs "%41")) with [length (times m (bs "%41"))]. cbn [rev app t_decode_percents]. rewrite <- app_assoc.
  change (bs "%41" ++ t) with (37%N :: 52%N :: 49%N :: t). destruct (percent_low E (times m (bs "%41")) t) as [F L].
  destruct (t_decode_percent E (times m (bs "%41") ++ 37%N :: 52%N :: 49%N :: t) (length (times m (bs "%41")))) as [x k]. cbn [fst snd] in F, L. subst x. cbn [t_bind fst snd].
  destruct (IH (65%N :: t)) as [I1 I2]. cbn [length] in I2. split; [|blia]. etransitivity; [exact I1|]. f_equal. change (repeat 65%N (S m)) with (65%N :: repeat 65%N m). rewrite repeat_cons. rewrite <- app_assoc. reflexivity.
Qed.

Theorem decode_qp_low : forall E m, decode_qp E (times m (bs "=41")) = Ok (repeat 65%N m) /\ m * m <= snd (t_decode_qp E (times m (bs "=41"))).
Proof. intros E m. destruct (qp_low E m (S (length (times m (bs "=41")))) [] ltac:(rewrite times_length; cbn; blia)) as [F L]. split; [|exact L]. rewrite <- (proj1 (decode_qp_cost E _)). exact F. Qed.
Theorem decode_header_qp_low : forall E m, decode_header_qp E (times m (bs "=41")) = Ok (repeat 65%N m) /\ m * m <= snd (t_decode_header_qp E (times m (bs "=41"))).
Proof. intros E m. destruct (header_qp_low E m (S (length (times m (bs "=41")))) [] ltac:(rewrite times_length; cbn; blia)) as [F L]. split; [|exact L]. rewrite <- (proj1 (decode_header_qp_cost E _)). exact F. Qed.
Theorem encode_qp_low : forall E m, m * m <= snd (t_encode_qp E (repeat 195%N m)).
Proof. intros E m. apply (encode_low E m (S (length (repeat 195%N m))) [] 0). rewrite repeat_length. blia. Qed.
Theorem decode_parameter_low : forall E m, decode_parameter E (times m (bs "%41")) (bs "us-ascii") = Ok (repeat 65%N m) /\ m * m <= snd (t_decode_parameter E (times m (bs "%41")) (bs "us-ascii")).
Proof.
  intros E m. destruct (percents_low E m []) as [F L]. rewrite !app_nil_r in F, L. pose proof (same_parameter E (times m (bs "%41")) (bs "us-ascii")) as P. unfold same in P. rewrite <- P. clear P.
  unfold t_decode_parameter. change (find_charset (bs "us-ascii")) with (Some Utf8OrAscii). cbv iota. cbn [t_step t_bind fst snd].
  destruct (t_decode_percents E (times m (bs "%41")) (rev (percents_from 0 (times m (bs "%41"))))) as [x k]. cbn [fst snd] in F, L. subst x. cbn [t_bind fst snd]. split; [|blia].
  cbn [decode_charset]. unfold str_checked. rewrite app_nil_r, ascii_utf8; [reflexivity|]. apply Forall_forall. intros c C. apply repeat_spec in C. now subst c.
Qed.

(* The work of the value parsers is linear in the text of the header they are in. *)
From Coq Require Import Lia ZifyBool ZifyNat ZifyN.
From Verif Require Import Base Utf8 CharSets Combinators Whitespace QuotedString Common Time Address MimeFields Fields Message Email Timed Post.

(* ---- how far a value can reach: up to the next line end that is no fold ---- *)
Fixpoint reach (i : bytes) : nat :=
  match i with
  | [] => 0
  | c :: r => if (c =? 13)%N then match r with 10%N :: w :: _ => if is_wsp w then S (reach r) else 0 | _ => 0 end else S (reach r)
  end.
Lemma reach_app : forall c r, reach (c ++ r) <= length c + reach r.
Proof.
  induction c as [|x c IH]; intros r; [cbn; lia|]. cbn [app length reach]. specialize (IH r). destruct (x =? 13)%N; [|lia].
  destruct (c ++ r) as [|y [|w t]]; try lia; destruct (y =? 10)%N eqn:Y.
  - apply N.eqb_eq in Y. subst y. lia.
  - destruct y; try lia. repeat (destruct p; try lia).
  - apply N.eqb_eq in Y. subst y. destruct (is_wsp w); lia.
  - destruct y; try lia. repeat (destruct p; try lia).
Qed.
Lemma reach_length : forall i, reach i <= length i.
Proof. intros i. pose proof (reach_app i []) as H. rewrite app_nil_r in H. cbn in H. lia. Qed.
Lemma reach_cons : forall c r, c <> 13%N -> reach (c :: r) = S (reach r).
Proof. intros c r H. cbn. destruct (c =? 13)%N eqn:X; [lia|reflexivity]. Qed.
Lemma reach_crlf : forall w r, is_wsp w = true -> reach (CRLF ++ w :: r) = 2 + reach (w :: r).
Proof. intros w r H. cbn [CRLF app reach]. rewrite H. change (13 =? 13)%N with true. change (10 =? 13)%N with false. cbv iota. reflexivity. Qed.
Lemma reach_crlf_end : forall r, (forall w t, r = w :: t -> is_wsp w = false) -> reach (CRLF ++ r) = 0.
Proof. intros [|w r] H; cbn; [reflexivity|]. now rewrite (H w r eq_refl). Qed.

(* r is further in the value than i *)
Definition ahead (i r : bytes) : Prop := (length i + reach r = length r + reach i /\ reach r <= reach i)%nat.
Lemma ahead_refl : forall i, ahead i i.
Proof. unfold ahead. intros. lia. Qed.
Lemma ahead_cons : forall c r, c <> 13%N -> ahead (c :: r) r.
Proof. unfold ahead. intros c r H. rewrite reach_cons by exact H. cbn [length]. lia. Qed.
Lemma ahead_app : forall a r, Forall (fun c => c <> 13%N) a -> ahead (a ++ r) r.
Proof.
  intros a r H. induction H as [|c a H _ IH]; [apply ahead_refl|]. cbn [app]. pose proof (ahead_cons c (a ++ r) H). unfold ahead in *. lia.
Qed.

(* ---- results and their cost; that the parser never crashes is proved elsewhere ---- *)
Definition spec {A} (G : bytes -> A -> nat -> Prop) (B : nat -> Prop) (x : timed (bytes * A)) : Prop :=
  match x with (Ok (r, a), n) => G r a n | (Err _, n) => B n | (Crash _, _) => True end.
(* no result *)
Definition nope {A} (x : timed (bytes * A)) : Prop := spec (fun _ _ _ => False) (fun _ => True) x.
Definition erred {A} (x : timed (bytes * A)) : Prop := match fst x with Err _ => True | _ => False end.
Lemma spec_erred : forall A (G : bytes -> A -> nat -> Prop) (B : nat -> Prop) x, spec G B x -> erred x -> B (snd x).
Proof. intros A G B [[[r a]|e|c] n] H X; cbn in *; [contradiction|exact H|contradiction]. Qed.
Lemma spec_known : forall A C (G : bytes -> C -> nat -> Prop) (B : nat -> Prop) (x : timed A) k a n,
  x = (Ok a, n) -> spec (fun r c m => G r c (n + m)) (fun m => B (n + m)) (k a) -> spec G B (t_bind x k).
Proof. intros A C G B x k a n -> H. cbn. destruct (k a) as [[[r c]|e|c] m]; exact H. Qed.
Lemma erred_known : forall A C (x : timed A) (k : A -> timed (bytes * C)) a n, x = (Ok a, n) -> erred (t_bind x k) -> erred (k a) /\ snd (t_bind x k) = n + snd (k a).
Proof. intros A C x k a n -> H. cbn in *. auto. Qed.
Lemma erred_map : forall A C (x : timed (bytes * A)) (k : bytes * A -> timed (bytes * C)), (forall r a, exists c, k (r, a) = t_ok c) -> erred (t_bind x k) -> erred x /\ snd (t_bind x k) = snd x.
Proof. intros A C [[[r a]|e|c] n] k Hk H; cbn in *; auto. destruct (Hk r a) as [c Hc]. rewrite Hc in H. contradiction. Qed.
Lemma spec_ok : forall A (G : bytes -> A -> nat -> Prop) B r a, G r a 0 -> spec G B (t_ok (r, a)).
Proof. auto. Qed.
Lemma spec_err : forall A (G : bytes -> A -> nat -> Prop) (B : nat -> Prop) e, B 0 -> spec G B (t_err e).
Proof. auto. Qed.
Lemma spec_bind : forall A C (G : bytes -> A -> nat -> Prop) (B : nat -> Prop) (G' : bytes -> C -> nat -> Prop) (B' : nat -> Prop) x k,
  spec G B x -> (forall n, B n -> B' n) -> (forall r a n, G r a n -> spec (fun r' c m => G' r' c (n + m)) (fun m => B' (n + m)) (k (r, a))) -> spec G' B' (t_bind x k).
Proof.
  intros A C G B G' B' [[[r a]|e|c] n] k H HB HG; cbn in *; [|auto..]. specialize (HG r a n H). destruct (k (r, a)) as [[[r' c]|e|c] m]; exact HG.
Qed.
Lemma spec_attempt : forall A C (G : bytes -> A -> nat -> Prop) (B : nat -> Prop) (G' : bytes -> C -> nat -> Prop) (B' : nat -> Prop) x k f,
  spec G B x -> (forall r a n, G r a n -> spec (fun r' c m => G' r' c (n + m)) (fun m => B' (n + m)) (k (r, a))) ->
  (forall n, B n -> spec (fun r' c m => G' r' c (n + m)) (fun m => B' (n + m)) f) -> spec G' B' (t_attempt x k f).
Proof.
  intros A C G B G' B' [[[r a]|e|c] n] k f H HG HB; cbn in *; [| |exact I].
  - specialize (HG r a n H). destruct (k (r, a)) as [[[r' c]|e|c] m]; exact HG.
  - specialize (HB n H). destruct f as [[[r' c]|e'|c] m]; exact HB.
Qed.
Lemma spec_weak : forall A (G G' : bytes -> A -> nat -> Prop) (B B' : nat -> Prop) x, spec G B x -> (forall r a n, G r a n -> G' r a n) -> (forall n, B n -> B' n) -> spec G' B' x.
Proof. intros A G G' B B' [[[r a]|e|c] n] H HG HB; cbn in *; auto. Qed.
Lemma spec_and : forall A (G G' : bytes -> A -> nat -> Prop) (B B' : nat -> Prop) x, spec G B x -> spec G' B' x -> spec (fun r a n => G r a n /\ G' r a n) (fun n => B n /\ B' n) x.
Proof. intros A G G' B B' [[[r a]|e|c] n] H H'; cbn in *; auto. Qed.

(* ---- the leaves ---- *)
Lemma span_app : forall f i, fst (span f i) ++ snd (span f i) = i.
Proof. intros f i. induction i as [|c r IH]; [reflexivity|]. cbn. destruct (f c); [|reflexivity]. destruct (span f r). cbn in *. now rewrite IH. Qed.
Lemma span_all : forall f i, Forall (fun c => f c = true) (fst (span f i)).
Proof. intros f i. induction i as [|c r IH]; [constructor|]. cbn. destruct (f c) eqn:X; [|constructor]. destruct (span f r). cbn in *. now constructor. Qed.
(* where a loop over bytes stops *)
Definition stops (f : byte -> bool) (i : bytes) : Prop := match i with [] => True | c :: _ => f c = false end.
Lemma span_stops : forall f i, stops f (snd (span f i)).
Proof. intros f i. induction i as [|c r IH]; [exact I|]. cbn. destruct (f c) eqn:X; [|exact X]. destruct (span f r). exact IH. Qed.
(* printable characters and blanks *)
Definition plain (f : byte -> bool) : Prop := forall c, f c = true -> (c <> 13 /\ c < 128)%N.
Ltac plainly := let c := fresh "c" in intros c; unfold is_wsp, is_ctext, is_vchar, is_atext, is_alpha, is_digit, is_dtext, is_qtext, is_ftext; lia.
Lemma span_ahead : forall f i, plain f -> ahead i (snd (span f i)).
Proof.
  intros f i H. rewrite <- (span_app f i) at 1. apply ahead_app. eapply Forall_impl; [|apply span_all]. cbn. intros c Hc. now apply H.
Qed.
Lemma span_utf8 : forall f i, plain f -> str_unchecked (fst (span f i)) = Ok (fst (span f i)).
Proof. intros f i H. apply str_unchecked_ascii. eapply Forall_impl; [|apply span_all]. intros c Hc. now apply H. Qed.
Lemma span_length : forall f i, length (fst (span f i)) + length (snd (span f i)) = length i.
Proof. intros f i. rewrite <- (span_app f i) at 3. now rewrite app_length. Qed.
Lemma stops_span : forall f i, stops f i -> span f i = ([], i).
Proof. intros f [|c r] H; [reflexivity|]. cbn in *. now rewrite H. Qed.
Lemma s_take_while : forall f i, plain f -> spec (fun r a n => ahead i r /\ stops f r /\ length a + length r = length i /\ n = S (length a) /\ (stops f i -> r = i /\ a = []) /\ a = fst (span f i)) (fun n => False) (t_take_while f i).
Proof.
  intros f i H. pose proof (span_stops f i) as Y. pose proof (span_ahead f i H) as Z. pose proof (span_length f i) as L. pose proof (span_utf8 f i H) as U.
  unfold t_take_while, take_while, t_step. pose proof (stops_span f i) as S. destruct (span f i) as [a r]. cbn [fst snd] in *. rewrite U. cbn [bind spec].
  split; [exact Z|]. split; [exact Y|]. split; [exact L|]. split; [reflexivity|]. split; [|reflexivity]. intros Hs. specialize (S Hs). injection S as -> ->. auto.
Qed.
Lemma s_take_while1 : forall f i, plain f -> spec (fun r a n => ahead i r /\ stops f r /\ length a + length r = length i /\ length a > 0 /\ n = S (length a) /\ ~ stops f i /\ a = fst (span f i)) (fun n => n = 1 /\ stops f i) (t_take_while1 f i).
Proof.
  intros f i H. pose proof (span_stops f i) as Y. pose proof (span_ahead f i H) as Z. pose proof (span_length f i) as L. pose proof (span_utf8 f i H) as U.
  unfold t_take_while1, take_while1, t_step. destruct i as [|c t]; [cbn; auto|]. destruct (f c) eqn:F.
  - cbn [negb]. assert (length (fst (span f (c :: t))) > 0) by (cbn; rewrite F; destruct (span f t); cbn; lia).
    destruct (span f (c :: t)) as [a r]. cbn [fst snd] in *. rewrite U. cbn [bind spec stops]. repeat split; auto; try apply Z. congruence.
  - cbn [negb]. rewrite stops_span by exact F. cbn. auto.
Qed.
Lemma starts_app : forall i p, starts_with i p = true -> i = p ++ skipn (length p) i.
Proof. intros i p. revert i. induction p as [|x p IH]; intros [|y i] H; cbn in *; try easy. apply andb_true_iff in H as [X H]. apply N.eqb_eq in X. subst y. now rewrite <- IH. Qed.
Lemma s_tag : forall e m i, spec (fun r _ n => i = e ++ r /\ n = S (length e)) (fun n => n = S (length e) /\ starts_with i e = false) (t_tag e m i).
Proof.
  intros e m i. unfold t_tag, t_step, tag. destruct (starts_with i e) eqn:X; [|cbn; auto]. pose proof (starts_app i e X) as Y. unfold unchecked_from.
  destruct (length i <? length e) eqn:L; [rewrite Y, app_length in L; lia|]. cbn. auto.
Qed.
Lemma s_char : forall c m i, (c <> 13)%N -> spec (fun r _ n => i = c :: r /\ ahead i r /\ reach r < reach i /\ n = 2) (fun n => n = 2) (t_tag [c] m i).
Proof.
  intros c m i H. eapply spec_weak; [apply s_tag| |]; cbn; [|tauto]. intros r _ n [-> ->]. pose proof (ahead_cons c r H) as X. split; [reflexivity|]. split; [exact X|]. rewrite reach_cons by exact H. lia.
Qed.

(* ---- white space ---- *)
Definition begins (f : byte -> bool) (i : bytes) : Prop := exists c r, i = c :: r /\ f c = true.
Lemma not_stops : forall f i, ~ stops f i -> begins f i.
Proof. intros f [|c r] H; cbn in H; [tauto|]. exists c, r. split; [reflexivity|]. now destruct (f c). Qed.
Lemma stops_or : forall f i, stops f i \/ begins f i.
Proof. intros f [|c r]; cbn; [auto|]. destruct (f c) eqn:X; [right; exists c, r; auto|auto]. Qed.
Lemma wsp_plain : plain is_wsp.
Proof. plainly. Qed.
Ltac ah := unfold ahead, bytes, byte in *; lia.
Lemma spec_concat : forall A a b (k : bytes -> timed (bytes * A)) (G : bytes -> A -> nat -> Prop) (B : nat -> Prop),
  spec (fun r c m => G r c (length a + length b + m)) (fun m => B (length a + length b + m)) (k (a ++ b)) -> spec G B (let+ s := t_concat a b in k s).
Proof. intros A a b k G B H. unfold t_concat, t_step, t_bind. cbn [fst snd]. destruct (k (a ++ b)) as [[[r c]|e|c] m]; exact H. Qed.
(* results that are no pairs *)
Definition specr {A} (G : A -> nat -> Prop) (B : nat -> Prop) (x : timed A) : Prop :=
  match x with (Ok a, n) => G a n | (Err _, n) => B n | (Crash _, _) => True end.
Lemma specr_bind : forall A C (G : A -> nat -> Prop) (B : nat -> Prop) (G' : bytes -> C -> nat -> Prop) (B' : nat -> Prop) x k,
  specr G B x -> (forall n, B n -> B' n) -> (forall a n, G a n -> spec (fun r' c m => G' r' c (n + m)) (fun m => B' (n + m)) (k a)) -> spec G' B' (t_bind x k).
Proof.
  intros A C G B G' B' [[a|e|c] n] k H HB HG; cbn in *; [|auto..]. specialize (HG a n H). destruct (k a) as [[[r' c]|e|c] m]; exact HG.
Qed.
(* a comparison and its two branches *)
Lemma spec_test : forall A i p (x y : timed (bytes * A)) (G : bytes -> A -> nat -> Prop) (B : nat -> Prop),
  (starts_with i p = true -> spec (fun r a n => G r a (S (length p) + n)) (fun n => B (S (length p) + n)) x) ->
  (starts_with i p = false -> spec (fun r a n => G r a (S (length p) + n)) (fun n => B (S (length p) + n)) y) ->
  spec G B (let+ b := t_starts_with i p in if b : bool then x else y).
Proof.
  intros A i p x y G B Hx Hy. unfold t_starts_with, t_step, t_bind. cbn [fst snd]. destruct (starts_with i p); [specialize (Hx eq_refl); destruct x as [[[r a]|e|c] n]|specialize (Hy eq_refl); destruct y as [[[r a]|e|c] n]]; assumption.
Qed.
Ltac both := repeat match goal with H : _ /\ _ |- _ => destruct H end.
Lemma s_fws : forall i, spec (fun r a n => ahead i r /\ reach r < reach i /\ n + 2 * reach r <= 2 * reach i + 5 /\ length a + length r <= length i /\ stops is_wsp r)
  (fun n => n <= 5 /\ stops is_wsp i \/ n <= reach i + 5 /\ begins is_wsp i) (t_fws i).
Proof.
  intros i. unfold t_fws. set (s := length (fst (span is_wsp i))). assert (Hs : s <= reach i) by (pose proof (span_ahead is_wsp i wsp_plain); pose proof (span_length is_wsp i); unfold s; ah).
  assert (Hz : stops is_wsp i -> s = 0) by (intros S; unfold s; now rewrite stops_span).
  eapply spec_bind with (G := fun r o n => match o with
      | None => r = i /\ n = s + 4
      | Some (a, _) => ahead i (CRLF ++ r) /\ n = length a + 4 /\ length a + 2 + length r = length i /\ s = length a end) (B := fun n => n = s + 4).
  - unfold t_optional. eapply spec_attempt with (G := fun r a n => ahead i (CRLF ++ r) /\ n = length (fst a) + 4 /\ length (fst a) + 2 + length r = length i /\ s = length (fst a)) (B := fun n => n = s + 4).
    + unfold t_pair_p. eapply spec_bind; [apply s_take_while; exact wsp_plain|intros n []|]. intros r1 a n (H1 & H2 & H3 & H4 & _ & H5).
      assert (H6 : s = length a) by (unfold s; now rewrite H5). eapply spec_bind; [apply s_tag| |]; cbn beta.
      * intros m [Hm _]. cbn [CRLF length] in Hm. ah.
      * intros r2 [] m [-> ->]. apply spec_ok. cbn [fst]. rewrite app_length in H3. cbn [CRLF length] in *. split; [exact H1|]. split; [lia|]. split; [lia|]. exact H6.
    + intros r [a u] n (H1 & H2 & H3 & H4). apply spec_ok. cbn [fst] in *. rewrite Nat.add_0_r. auto.
    + intros n H1. apply spec_ok; rewrite Nat.add_0_r; auto.
  - intros n H1. destruct (stops_or is_wsp i) as [S|S]; [left; split; [specialize (Hz S); lia|exact S]|right; split; [lia|exact S]].
  - intros r o n H. eapply spec_bind; [apply s_take_while1; exact wsp_plain| |]; cbn beta.
    + intros m [-> Hx]. assert (X : n = s + 4) by (destruct o as [[a u]|]; lia). destruct (stops_or is_wsp i) as [S|S]; [left; split; [specialize (Hz S); lia|exact S]|right; split; [lia|exact S]].
    + intros r' b m (H1 & H2 & H3 & H4 & H5 & H6 & H7). destruct o as [[a u]|].
      * destruct H as (K1 & K2 & K3 & K4). apply spec_concat, spec_ok. apply not_stops in H6 as (w & t & -> & Hw). unfold ahead in *. rewrite reach_crlf in K1 by exact Hw. rewrite !app_length in *. cbn [length CRLF] in *. split; [ah|]. split; [ah|]. split; [ah|]. split; [ah|exact H2].
      * destruct H as (-> & K1). apply spec_ok. assert (K2 : s = length b) by (unfold s; now rewrite H7). split; [ah|]. split; [ah|]. split; [ah|]. split; [ah|exact H2].
Qed.
(* the optional white space before something *)
Lemma s_optional_fws : forall i, spec (fun r o n => ahead i r /\ (n + 2 * reach r <= 2 * reach i + 5 \/ r = i /\ n <= reach i + 5 /\ begins is_wsp i) /\ match o with Some a => length a | None => 0 end + length r <= length i /\ n <= 2 * reach i + 5)
  (fun n => False) (t_optional t_fws i).
Proof.
  intros i. unfold t_optional. eapply spec_attempt; [apply s_fws| |]; cbn beta.
  - intros r a n (H1 & H2 & H3 & H4 & H5). apply spec_ok. split; [exact H1|]. split; [left; ah|]. split; [exact H4|ah].
  - intros n H. apply spec_ok. split; [apply ahead_refl|]. split; [|split; [lia|destruct H as [[H _]|[H _]]; lia]]. destruct H as [[H1 H2]|[H1 H2]]; [left; lia|right; repeat split; auto; lia].
Qed.


(* ---- loops ---- *)
(* a turn costs at most K for each byte passed; or it is the last one *)
Definition turns {A} (K k : nat) (D : bytes -> Prop) (p : timed_parser A) (size : A -> nat) : Prop := forall i,
  spec (fun r a n => ahead i r /\ reach r < reach i /\ size a + 2 * length r <= 2 * length i /\ (n + 1 + K * reach r <= K * reach i \/ D r /\ nope (p r) /\ n <= K * reach i + k))
       (fun n => True) (p i).
Lemma spec_turn : forall A (x : timed (bytes * A)) (G : bytes -> A -> nat -> Prop) (B : nat -> Prop),
  spec (fun r l m => G r l (S m)) (fun m => B (S m)) x -> spec G B (let+ _ := t_step 1 (Ok tt) in x).
Proof. intros A [[[r a]|e|c] m] G B H; exact H. Qed.
Definition many_post {A} (K k : nat) (D : bytes -> Prop) (p : timed_parser A) (size : A -> nat) (i r : bytes) (l : list A) (m : nat) : Prop :=
  ahead i r /\ list_sum (map size l) + 2 * length r <= 2 * length i /\ length l + length r <= length i /\ erred (p r) /\
  (m + K * reach r <= K * reach i + 1 + snd (p r) \/ D r /\ m <= K * reach i + k + 2 + snd (p r)).
Lemma many_cost : forall A K k D (p : timed_parser A) size, turns K k D p size -> forall n i, spec (many_post K k D p size i) (fun m => False) (t_many_fuel n p i).
Proof.
  intros A K k D p size Hp. induction n as [|n IH]; intros i; [exact I|]. cbn [t_many_fuel]. apply spec_turn.
  pose proof (Hp i) as Hi. destruct (p i) as [[[r a]|e|c] m] eqn:P; cbn [spec] in Hi; [|unfold t_attempt|exact I].
  - destruct Hi as (H1 & H2 & H3 & H4). unfold t_attempt. specialize (IH r). destruct H4 as [H4|(H4 & H5 & H6)].
    + destruct (t_many_fuel n p r) as [[[r' l]|e|c] m'] eqn:M; cbn in *; [|exact IH|exact I]. unfold many_post in *. cbn [map list_sum length fold_right]. destruct IH as (I1 & I2 & I3 & I4 & I5).
      split; [ah|]. split; [change (fold_right Nat.add 0 (map size l)) with (list_sum (map size l)); ah|]. split; [ah|]. split; [exact I4|]. destruct I5 as [I5|[I5 I6]]; [left; lia|right; split; [exact I5|lia]].
    + destruct n as [|n]; [exact I|]. cbn [t_many_fuel]. destruct (p r) as [[[r' b]|e|c] m'] eqn:R; cbn in *; [contradiction| |exact I].
      unfold many_post. rewrite R. cbn. split; [ah|]. split; [ah|]. split; [ah|]. split; [exact I|]. right. split; [exact H4|lia].
  - cbn. unfold many_post. rewrite P. cbn. split; [ah|]. split; [lia|]. split; [lia|]. split; [exact I|]. left. lia.
Qed.
Lemma s_many : forall A K k D (p : timed_parser A) size, turns K k D p size -> forall i, spec (many_post K k D p size i) (fun m => False) (t_many p i).
Proof. intros A K k D p size H i. now apply many_cost. Qed.
Lemma many_nope : forall A (p : timed_parser A) i, nope (p i) -> spec (fun r l n => r = i /\ l = [] /\ n = 1 + snd (p i) /\ erred (p i)) (fun _ => False) (t_many p i).
Proof. intros A p i H. unfold t_many. cbn [t_many_fuel]. apply spec_turn. destruct (p i) as [[[r a]|e|c] m]; cbn in *; [contradiction| |exact I]. split; [reflexivity|]. split; [reflexivity|]. split; [lia|exact I]. Qed.

(* ---- comments ---- *)
Lemma ctext_plain : plain is_ctext.
Proof. plainly. Qed.
Lemma begins_stops : forall f g i, begins f i -> (forall c, f c = true -> g c = false) -> stops g i.
Proof. intros f g i (c & r & -> & H) X. cbn. auto. Qed.
Lemma begins_not : forall f i, begins f i -> stops f i -> False.
Proof. intros f i (c & r & -> & H). cbn. congruence. Qed.
Definition is_bslash (c : byte) : bool := (c =? 92)%N.
Definition is_open (c : byte) : bool := (c =? 40)%N.
Lemma s_quoted_pair : forall i, spec (fun r a n => ahead i r /\ 2 + reach r = reach i /\ length a + length r <= length i /\ n = 3 /\ begins is_bslash i) (fun n => n = 3) (t_quoted_pair i).
Proof.
  intros i. unfold t_quoted_pair, t_step, quoted_pair. pose proof (s_tag [BACKSLASH] "TAG ERROR: A quoted pair must start with a `\`." i) as T. unfold t_tag, t_step, spec in T.
  destruct (tag _ _ i) as [[r []]|e|c]; cbn; [|reflexivity|exact I]. destruct T as [-> _]. destruct r as [|c r]; [reflexivity|].
  destruct (is_vchar c || is_wsp c) eqn:C; [|reflexivity]. unfold unchecked_from, unchecked_to. cbn [length]. change (S (length r) <? 1) with false. cbn [bind skipn firstn].
  assert (X : (c <> 13 /\ c < 128)%N) by (revert C; unfold is_vchar, is_wsp; lia). rewrite str_unchecked_ascii by (repeat constructor; apply X). cbn [bind spec].
  pose proof (ahead_cons 92%N (c :: r) ltac:(lia)) as Y1. pose proof (ahead_cons c r ltac:(lia)) as Y2. change ([BACKSLASH] ++ c :: r) with (92%N :: c :: r).
  rewrite (reach_cons 92%N), (reach_cons c) by lia. cbn [length] in *. split; [unfold ahead in *; cbn [length] in *; lia|]. split; [lia|]. split; [lia|]. split; [reflexivity|]. exists 92%N, (c :: r). auto.
Qed.
Lemma starts_false : forall i x f, starts_with i [x] = false -> (forall c, f c = true -> c = x) -> stops f i.
Proof. intros [|c i] x f H X; [exact I|]. cbn in *. destruct (f c) eqn:F; [|reflexivity]. apply X in F. subst c. rewrite N.eqb_refl in H. destruct i; discriminate H. Qed.
Definition comment_post (i r : bytes) (n : nat) : Prop := ahead i r /\ 2 + reach r <= reach i /\ n + 10 + 40 * reach r <= 40 * reach i /\ begins is_open i.
Definition comment_bad (i : bytes) (n : nat) : Prop := n = 2 /\ stops is_open i \/ begins is_open i /\ n <= 40 * reach i.
Lemma s_ccontent : forall d, (forall i, spec (fun r a n => comment_post i r n) (comment_bad i) (t_comment_d d i)) ->
  forall i, spec (fun r a n => ahead i r /\ reach r < reach i /\ n + 6 + 40 * reach r <= 40 * reach i /\ stops is_wsp i) (fun n => n = 6 /\ stops is_open i \/ begins is_open i /\ n <= 40 * reach i + 4)
    (t_match_parsers [t_take_while1 is_ctext; t_quoted_pair; t_comment_d d] i).
Proof.
  intros d Hd i. cbn [t_match_parsers]. eapply spec_attempt; [apply s_take_while1; exact ctext_plain| |].
  - intros r a n (H1 & H2 & H3 & H4 & H5 & H6 & H7). apply spec_ok. split; [exact H1|]. split; [ah|]. split; [ah|]. apply not_stops in H6. eapply begins_stops; [exact H6|]. unfold is_ctext, is_wsp. lia.
  - intros n [-> _]. eapply spec_attempt; [apply s_quoted_pair| |]; cbn beta.
    + intros r a m (H1 & H2 & H3 & H4 & H5). apply spec_ok. split; [ah|]. split; [ah|]. split; [ah|]. eapply begins_stops; [exact H5|]. unfold is_bslash, is_wsp. lia.
    + intros m ->. eapply spec_attempt; [apply Hd| |]; cbn beta.
      * intros r a m (H1 & H2 & H3 & H4). apply spec_ok. split; [ah|]. split; [ah|]. split; [ah|]. eapply begins_stops; [exact H4|]. unfold is_open, is_wsp. lia.
      * intros m H. apply spec_err. destruct H as [[-> H]|[H H']]; [left|right]; (split; [lia|exact H]) || (split; [exact H|lia]).
Qed.
Lemma s_comment_d : forall d i, spec (fun r a n => comment_post i r n) (comment_bad i) (t_comment_d d i).
Proof.
  induction d as [|d IH]; intros i; [exact I|]. pose proof (s_ccontent d IH) as Hc. cbn [t_comment_d]. set (cc := t_match_parsers [t_take_while1 is_ctext; t_quoted_pair; t_comment_d d]) in *.
  change (bs "(") with [40%N]. change (bs ")") with [41%N]. eapply spec_bind; [apply s_tag| |]; cbn beta.
  - intros n [-> H]. left. split; [reflexivity|]. eapply starts_false; [exact H|]. unfold is_open. intros c. lia.
  - intros i1 [] n [-> ->]. change ([40%N] ++ i1) with (40%N :: i1). pose proof (ahead_cons 40%N i1 ltac:(lia)) as Hi. pose proof (reach_cons 40%N i1 ltac:(lia)) as Hr.
    assert (Ho : begins is_open (40%N :: i1)) by (exists 40%N, i1; auto). set (p := t_pair_p (t_optional t_fws) cc).
    assert (Hp : turns 40 0 (fun _ => False) p (fun _ => 0)).
    { intros j. unfold p, t_pair_p. eapply spec_bind; [apply s_optional_fws|intros n []|]. intros r1 o n (H1 & H2 & H3 & H4). eapply spec_bind; [apply Hc|auto|]. cbn beta. intros r2 a m (K1 & K2 & K3 & K4).
      apply spec_ok. split; [ah|]. split; [ah|]. split; [ah|]. left. destruct H2 as [H2|(-> & _ & H2)]; [ah|]. exfalso. eapply begins_not; eassumption. }
    eapply spec_bind with (G := fun r _ n => many_post 40 0 (fun _ => False) p (fun _ => 0) i1 r (nil : list (option bytes * bytes)) n) (B := fun _ => False).
    { unfold t_ignore_many. eapply spec_bind; [apply (s_many _ _ _ _ _ _ Hp)|intros n []|]. cbn beta. intros r l n H. apply spec_ok. unfold many_post in *. cbn [map list_sum fold_right length]. destruct H as (H1 & H2 & H3 & H4 & H5). split; [exact H1|]. split; [ah|]. split; [ah|]. split; [exact H4|]. destruct H5 as [H5|[[] _]]. left. lia. }
    { intros n []. }
    intros r1 u n (H1 & _ & _ & H4 & H5). destruct H5 as [H5|[[] _]]. unfold p, t_pair_p in H4, H5. pose proof (s_optional_fws r1) as Hf. pose proof (Hc : forall i, _) as Hcc.
    destruct (t_optional t_fws r1) as [[[r2 o]|e|c] m] eqn:F in Hf; cbn [spec] in Hf; [|contradiction|rewrite F in H4; contradiction]. destruct Hf as (F1 & F2 & F3 & F4). specialize (Hcc r2).
    destruct (erred_known _ _ _ _ _ _ F H4) as [H6 H7]. rewrite H7 in H5. apply erred_map in H6 as [H8 H9]; [|eauto]. rewrite H9 in H5. apply (spec_erred _ _ _ _ Hcc) in H8. cbn beta in H8. clear H9 H4 H7 Hcc.
    eapply spec_known; [exact F|]. cbn beta. eapply spec_bind; [apply s_tag| |]; cbn beta.
    + intros q [-> _]. right. split; [exact Ho|]. rewrite Hr. cbn [length]. destruct H8 as [[H8 _]|[H8 H9]].
      * rewrite H8 in H5. ah.
      * destruct F2 as [F2|(-> & _ & F2)]; [ah|]. exfalso. eapply begins_not; [exact F2|]. eapply begins_stops; [exact H8|]. unfold is_open, is_wsp. lia.
    + intros r3 [] q [-> ->]. change ([41%N] ++ r3) with (41%N :: r3) in *. pose proof (ahead_cons 41%N r3 ltac:(lia)) as G1. pose proof (reach_cons 41%N r3 ltac:(lia)) as G2.
      destruct H8 as [[H8 _]|[H8 _]]; [|exfalso; eapply (begins_not is_open (41%N :: r3)); [exact H8|reflexivity]]. destruct F2 as [F2|(F5 & _ & F2)]; [|exfalso; rewrite <- F5 in F2; eapply (begins_not is_wsp (41%N :: r3)); [exact F2|reflexivity]].
      apply spec_ok. unfold comment_post. cbn [length] in *. split; [ah|]. split; [ah|]. split; [ah|exact Ho].
Qed.
Lemma s_comment : forall i, spec (fun r a n => comment_post i r n) (comment_bad i) (t_comment i).
Proof. intros i. apply s_comment_d. Qed.

(* ---- comments and white space ---- *)
Lemma s_fws_comment : forall i, spec (fun r a n => ahead i r /\ reach r < reach i /\ length a + length r <= length i /\ n + 5 + 40 * reach r <= 40 * reach i) (fun n => True) (t_fws_comment i).
Proof.
  intros i. unfold t_fws_comment. eapply spec_bind; [apply s_optional_fws|auto|]. intros r o n (H1 & H2 & H3 & H4). eapply spec_bind; [apply s_comment|auto|]. cbn beta.
  intros r' a m (K1 & K2 & K3 & K4). apply spec_ok. split; [ah|]. split; [ah|].
  split; [destruct o as [b|]; cbn [length] in *; ah|]. destruct H2 as [H2|(-> & H2 & H5)]; [ah|]. exfalso. eapply begins_not; [exact H5|]. eapply begins_stops; [exact K4|]. unfold is_open, is_wsp. lia.
Qed.
(* where neither white space nor a comment can begin *)
Definition quiet (i : bytes) : Prop := stops is_wsp i /\ stops is_open i /\ starts_with i CRLF = false.
Lemma fws_quiet : forall i, stops is_wsp i -> starts_with i CRLF = false -> spec (fun _ _ _ => False) (fun n => n = 5) (t_fws i).
Proof.
  intros i H1 H2. unfold t_fws. eapply spec_bind with (G := fun r o n => r = i /\ o = None /\ n = 4) (B := fun _ => False).
  - unfold t_optional. eapply spec_attempt with (G := fun _ _ _ => False) (B := fun n => n = 4).
    + unfold t_pair_p. eapply spec_bind; [apply s_take_while; exact wsp_plain|intros n []|]. cbn beta. intros r a n (_ & _ & _ & -> & K & _). destruct (K H1) as [-> ->].
      eapply spec_bind; [apply s_tag|intros n [-> _]; reflexivity|]. cbn beta. intros r u n [-> _]. exfalso. rewrite (Post.starts_with_app CRLF r) in H2. discriminate.
    + intros r a n [].
    + intros n ->. apply spec_ok. auto.
  - intros n [].
  - intros r o n (-> & -> & ->). eapply spec_bind; [apply s_take_while1; exact wsp_plain|intros n [-> _]; reflexivity|]. cbn beta. intros r a n (_ & _ & _ & _ & _ & K & _). contradiction.
Qed.
Lemma open_quiet : forall i, begins is_open i -> stops is_wsp i /\ starts_with i CRLF = false.
Proof. intros i (c & r & -> & H). unfold is_open in H. apply N.eqb_eq in H. subst c. split; [reflexivity|]. now destruct r. Qed.
Definition is_lead (c : byte) : bool := is_wsp c || is_open c.
Definition stuck (i : bytes) : Prop := begins is_lead i /\ nope (t_cfws i).
Lemma nope_bind : forall A C (x : timed (bytes * A)) (k : bytes * A -> timed (bytes * C)), nope x -> nope (t_bind x k).
Proof. intros A C [[[r a]|e|c] n] k H; cbn in *; auto. contradiction. Qed.
Lemma nope_map_err : forall A (x : timed (bytes * A)) e, nope x -> nope (t_map_err x e).
Proof. intros A [[[r a]|e|c] n] k H; cbn in *; auto. Qed.
Lemma erred_nope : forall A (x : timed (bytes * A)), erred x -> nope x.
Proof. intros A [[[r a]|e|c] n]; cbn; auto. Qed.
Lemma cfws_nope : forall i, nope (t_fws i) -> nope (t_comment i) -> nope (t_cfws i).
Proof.
  intros i Hf Hc. unfold t_cfws. cbn [t_match_parsers]. assert (X : nope (t_real_cfws i)).
  { unfold t_real_cfws. apply nope_bind, nope_map_err. unfold t_fws_comment, t_optional, nope. destruct (t_fws i) as [[[r a]|e|c] n]; [contradiction| |exact I]. cbn -[t_comment]. destruct (t_comment i) as [[[r a]|e'|c] m]; cbn in *; auto; contradiction. }
  destruct (t_real_cfws i) as [[[r a]|e|c] n]; [contradiction| |exact I]. cbn -[t_fws]. destruct (t_fws i) as [[[r a]|e'|c] m]; cbn in *; auto; contradiction.
Qed.
Lemma stuck_open : forall i, begins is_open i -> nope (t_comment i) -> stuck i.
Proof.
  intros i H Hc. split; [destruct H as (c & r & -> & H); exists c, r; split; [reflexivity|unfold is_lead; now rewrite H, orb_true_r]|]. apply cfws_nope; [|exact Hc].
  destruct (open_quiet i H) as [H1 H2]. eapply spec_weak; [exact (fws_quiet i H1 H2)| |]; cbn; auto.
Qed.
Lemma stuck_wsp : forall i, begins is_wsp i -> nope (t_fws i) -> stuck i.
Proof.
  intros i H Hf. split; [destruct H as (c & r & -> & H); exists c, r; split; [reflexivity|unfold is_lead; now rewrite H]|]. apply cfws_nope; [exact Hf|].
  eapply spec_weak; [apply s_comment| |auto]. intros r a n (_ & _ & _ & K). eapply begins_not; [exact H|]. eapply begins_stops; [exact K|]. unfold is_open, is_wsp. lia.
Qed.
Definition cfws_post (i r : bytes) (n : nat) : Prop := ahead i r /\ (n + 50 * reach r <= 50 * reach i + 20 \/ stuck r /\ n <= 50 * reach i + 20).
Definition cfws_bad (i : bytes) (n : nat) : Prop := n <= 12 /\ stops is_lead i \/ begins is_lead i /\ n <= 50 * reach i + 12.
Lemma fws_comment_ends : forall i, erred (t_fws_comment i) -> exists r o c, t_optional t_fws i = (Ok (r, o), c) /\ ahead i r /\ match o with Some a => length a | None => 0 end + length r <= length i /\
  (snd (t_fws_comment i) = c + 2 /\ c + 2 * reach r <= 2 * reach i + 5 \/ stuck r /\ snd (t_fws_comment i) + c <= 40 * reach i + 12) /\ (o = None -> r = i /\ erred (t_fws i) /\ (stops is_wsp i /\ c <= 5 \/ begins is_wsp i)).
Proof.
  intros i H. pose proof (s_fws i) as Hf. assert (W := eq_refl (t_fws_comment i)). unfold t_fws_comment at 2 in W. rewrite W in H. unfold t_optional in *. destruct (t_fws i) as [[[r a]|e|c] n] eqn:F; cbn [t_attempt t_ok fst snd] in *; [| |contradiction].
  - destruct Hf as (F1 & F2 & F3 & F4 & F5). exists r, (Some a), (n + 0). split; [reflexivity|]. split; [exact F1|]. split; [exact F4|]. split; [|discriminate].
    assert (H' : erred (t_bind (t_comment r) (fun '(i, _) => t_ok (i, a)))) by exact H. apply erred_map in H' as [H1 H2]; [|eauto]. pose proof (s_comment r) as Hc. apply (spec_erred _ _ _ _ Hc) in H1 as H3.
    assert (V : snd (t_fws_comment i) = n + 0 + snd (t_comment r)) by (rewrite <- H2, W; reflexivity). rewrite V. destruct H3 as [[H3 _]|[H3 H4]]; [left; split; lia|]. right. split; [apply stuck_open; [exact H3|now apply erred_nope]|lia].
  - exists i, None, (n + 0). split; [reflexivity|]. split; [apply ahead_refl|]. split; [lia|].
    assert (H' : erred (t_bind (t_comment i) (fun '(i, _) => t_ok (i, ([] : bytes))))) by exact H. apply erred_map in H' as [H1 H2]; [|eauto]. pose proof (s_comment i) as Hc. apply (spec_erred _ _ _ _ Hc) in H1 as H3.
    assert (V : snd (t_fws_comment i) = n + 0 + snd (t_comment i)) by (rewrite <- H2, W; reflexivity). rewrite V. split; [|split; [reflexivity|split; [exact I|destruct Hf as [[Hf Hs]|[Hf Hs]]; [left; split; [exact Hs|lia]|right; exact Hs]]]].
    destruct Hf as [[Hf Hs]|[Hf Hs]].
    + destruct H3 as [[H3 _]|[H3 H4]]; [left; split; lia|]. right. split; [apply stuck_open; [exact H3|now apply erred_nope]|lia].
    + right. split; [apply stuck_wsp; [exact Hs|rewrite F; exact I]|]. destruct H3 as [[H3 _]|[H3 H4]]; [lia|]. exfalso. eapply begins_not; [exact Hs|]. eapply begins_stops; [exact H3|]. unfold is_open, is_wsp. lia.
Qed.
Lemma sum_concat : forall l : list bytes, list_sum (map (fun w => 2 * length w) l) = 2 * length (concat l).
Proof.
  induction l as [|w l IH]; [reflexivity|]. unfold list_sum in *. cbn [concat map fold_right]. rewrite app_length. unfold bytes, byte in *. rewrite IH. lia.
Qed.
Lemma s_real_cfws : forall i, spec (fun r a n => cfws_post i r n /\ reach r < reach i /\ length a + length r <= length i) (fun n => erred (t_fws_comment i) /\ n = snd (t_fws_comment i)) (t_real_cfws i).
Proof.
  intros i. unfold t_real_cfws. eapply spec_bind with (B := fun n => erred (t_fws_comment i) /\ n = snd (t_fws_comment i)); [|auto|].
  { pose proof (s_fws_comment i) as H. destruct (t_fws_comment i) as [[[r a]|e|c] n]; cbn [spec t_map_err fst snd map_err] in *; [exact H|split; [exact I|reflexivity]|exact I]. }
  cbn beta. intros r a n (H1 & H2 & H3 & H4).
  assert (T : turns 40 0 (fun _ => False) t_fws_comment (fun w => 2 * length w)).
  { intros j. eapply spec_weak; [apply s_fws_comment| |auto]. cbn beta. intros r' b m (K1 & K2 & K3 & K4). split; [exact K1|]. split; [exact K2|]. split; [ah|left; ah]. }
  eapply spec_bind; [apply (s_many _ _ _ _ _ _ T)|intros m []|]. cbn beta. intros r1 l m (K1 & K2 & K3 & K4 & K5). destruct K5 as [K5|[[] _]].
  apply fws_comment_ends in K4 as (r2 & o & c & E & L1 & L2 & L3 & _). eapply spec_known; [exact E|]. cbn beta iota. unfold t_step, spec.
  rewrite sum_concat in K2.
  assert (L : length (a ++ concat l ++ match o with Some s => s | None => [] end) + length r2 <= length i) by (rewrite !app_length; destruct o; cbn [length] in *; ah).
  split; [|split; [ah|exact L]]. set (s := a ++ _) in *. unfold cfws_post. split; [ah|]. destruct L3 as [[L3 L4]|[L3 L4]]; [left; ah|right; split; [exact L3|ah]].
Qed.
Lemma s_cfws : forall i, spec (fun r a n => cfws_post i r n /\ reach r < reach i /\ length a + length r <= length i) (fun n => cfws_bad i n) (t_cfws i).
Proof.
  intros i. unfold t_cfws. cbn [t_match_parsers]. eapply spec_attempt; [apply s_real_cfws| |]; cbn beta.
  - intros r a n ((H1 & H2) & H3 & H4). apply spec_ok. split; [|split; assumption]. split; [exact H1|]. now rewrite Nat.add_0_r.
  - intros n [H ->]. apply fws_comment_ends in H as (r & o & c & E & L1 & L2 & L3 & L4). pose proof (s_fws i) as Hf. unfold t_optional in E.
    destruct (t_fws i) as [[[r' a]|e|c'] m]; cbn [t_attempt t_ok fst snd] in *; [injection E as -> <- <-|injection E as <- <- <-|discriminate].
    + destruct Hf as (F1 & F2 & F3 & F4 & F5). unfold spec. cbn [t_attempt fst snd t_ok]. split; [|split; [exact F2|exact F4]]. split; [exact F1|]. destruct L3 as [[L3 L5]|[L3 L5]]; [left; lia|right; split; [exact L3|lia]].
    + destruct (L4 eq_refl) as (_ & _ & L5). unfold spec. cbn [t_attempt fst snd t_err]. unfold cfws_bad. destruct L3 as [[L3 L6]|[L3 L6]].
      * destruct (stops_or is_lead i) as [S|S]; [left; split; [|exact S]|right; split; [exact S|lia]]. destruct L5 as [[_ L5]|L5]; [lia|]. exfalso. eapply begins_not; [exact L5|]. destruct L5 as (x & t & -> & X). cbn in *. unfold is_lead in S. now rewrite X in S.
      * right. split; [apply L3|]. lia.
Qed.
Lemma s_skip : forall i, specr (fun r n => cfws_post i r n) (fun n => False) (t_skip_cfws i).
Proof.
  intros i. unfold t_skip_cfws. pose proof (s_cfws i) as H. destruct (t_cfws i) as [[[r a]|e|c] n] eqn:C; cbn [t_attempt specr spec t_ok fst snd] in *; [| |exact I].
  - rewrite Nat.add_0_r. apply H.
  - unfold cfws_post. split; [apply ahead_refl|]. destruct H as [[H _]|[H1 H2]]; [left; lia|]. right. split; [split; [exact H1|now rewrite C]|lia].
Qed.
Lemma s_optional_cfws : forall i, spec (fun r o n => cfws_post i r n /\ t_skip_cfws i = (Ok r, n)) (fun n => False) (t_optional t_cfws i).
Proof.
  intros i. pose proof (s_skip i) as H. unfold t_optional. unfold t_skip_cfws in *. destruct (t_cfws i) as [[[r a]|e|c] n]; cbn [t_attempt specr spec t_ok fst snd] in *; auto.
Qed.
Lemma stuck_skip : forall i, stuck i -> specr (fun r n => r = i) (fun _ => False) (t_skip_cfws i).
Proof. intros i [_ H]. unfold t_skip_cfws. destruct (t_cfws i) as [[[r a]|e|c] n]; [contradiction|reflexivity|exact I]. Qed.
Lemma skip_quiet : forall i, quiet i -> specr (fun r n => r = i /\ n <= 12) (fun _ => False) (t_skip_cfws i).
Proof.
  intros i (H1 & H2 & H3). pose proof (fws_quiet i H1 H3) as F. pose proof (s_cfws i) as C. assert (X : nope (t_cfws i)).
  { apply cfws_nope; [eapply spec_weak; [exact F| |]; cbn; auto|]. eapply spec_weak; [apply s_comment| |auto]. intros r a n (_ & _ & _ & K). eapply begins_not; eassumption. }
  unfold t_skip_cfws. destruct (t_cfws i) as [[[r a]|e|c] n]; [contradiction| |exact I]. cbn in *. split; [reflexivity|]. destruct C as [[C _]|[C _]]; [lia|]. exfalso. destruct i as [|x i]; [destruct C as (c & r & D & _); discriminate|].
  destruct C as (c & r & D & C). injection D as <- <-. unfold is_lead in C. cbn in H1, H2. rewrite H1, H2 in C. discriminate.
Qed.

(* The strings of the parsers: slices and copies read as the model's strings, slices stay inside the
   input, and without backslashes and folds nothing is copied. *)
From Verif Require Import Base Utf8 CharSets Combinators Whitespace QuotedString Base64 QuotedPrintable EncodedWord Charset Common Time Address Percent MimeFields Fields Message Entity Email Envs StringCow StringSpec Utf8Facts StringFacts ZeroCopy ZeroSpec.
From Verif Require GrammarFacts Post SoundAddr SoundFields WriteFacts PercentProofs TextFacts.
From Coq Require Import Lia Bool.

Definition after (i j : bytes) : Prop := exists w, i = w ++ j.
Lemma after_refl : forall i, after i i.
Proof. intros i. now exists []. Qed.
Lemma after_trans : forall i j k, after i j -> after j k -> after i k.
Proof. intros i j k [a ->] [b ->]. exists (a ++ b). now rewrite app_assoc. Qed.
Lemma after_len : forall i j, after i j -> length j <= length i.
Proof. intros i j [a ->]. rewrite app_length. lia. Qed.
Lemma after_cons : forall c i, after (c :: i) i.
Proof. intros c i. now exists [c]. Qed.

(* the same outcome, with related results *)
Definition rel {A B} (R : A -> B -> Prop) (x : res A) (y : res B) : Prop :=
  match x, y with
  | Ok a, Ok b => R a b
  | Err e, Err f => e = f
  | Crash c, Crash d => c = d
  | _, _ => False
  end.
Lemma rel_bind : forall A B A' B' (R : A -> B -> Prop) (Q : A' -> B' -> Prop) x y k l, rel R x y -> (forall a b, R a b -> rel Q (k a) (l b)) -> rel Q (bind x k) (bind y l).
Proof. intros A B A' B' R Q [a|e|c] [b|f|d] k l H HK; cbn in *; try easy; auto. Qed.
Lemma rel_attempt : forall A B A' B' (R : A -> B -> Prop) (Q : A' -> B' -> Prop) x y k l u v, rel R x y -> (forall a b, R a b -> rel Q (k a) (l b)) -> rel Q u v -> rel Q (attempt x k u) (attempt y l v).
Proof. intros A B A' B' R Q [a|e|c] [b|f|d] k l u v H HK HU; cbn in *; try easy; auto. Qed.
Lemma rel_map_err : forall A B (R : A -> B -> Prop) x y e, rel R x y -> rel R (map_err x e) (map_err y e).
Proof. intros A B R [a|x|c] [b|f|d] e H; cbn in *; easy. Qed.
Lemma rel_weaken : forall A B (R Q : A -> B -> Prop) x y, (forall a b, R a b -> Q a b) -> rel R x y -> rel Q x y.
Proof. intros A B R Q [a|x|c] [b|f|d] HQ H; cbn in *; auto. Qed.
Lemma rel_same : forall A (R : A -> A -> Prop) x, (forall a, x = Ok a -> R a a) -> rel R x x.
Proof. intros A R [a|e|c] H; cbn; auto. Qed.
(* what was added to a string *)
Lemma rel_then : forall A A' B' (Q : A' -> B' -> Prop) (x : res A) k y, (exists a, x = Ok a /\ rel Q (k a) y) -> rel Q (bind x k) y.
Proof. intros A A' B' Q x k y (a & -> & H). exact H. Qed.

Definition out {A B} (R : bytes -> bytes -> A -> B -> Prop) (i : bytes) (x : bytes * A) (y : bytes * B) : Prop :=
  fst x = fst y /\ after i (fst x) /\ R i (fst x) (snd x) (snd y).

Section Place.
Variable M : place.
Variable D : bytes.
Notation m := (memory M).
Hypothesis HT : total M = length D.
Hypothesis HA : at_address m (base M) D.
(* what comes before the last L bytes is quiet; [plain_names]: and has no `[` *)
Variable L : nat.
Variable plain_names : Prop.
Hypothesis HQ : forall a w j, D = a ++ w ++ j -> L <= length j -> quiet w.
Hypothesis HN : plain_names -> forall a w j, D = a ++ w ++ j -> L <= length j -> ~ In 91%N w.

Definition tail (i : bytes) : Prop := after D i.
Definition does {A B} (p : parser A) (q : parser B) (R : bytes -> bytes -> A -> B -> Prop) : Prop := forall i, tail i -> rel (out R i) (p i) (q i).

Definition text_ok (c : cow) (v : bytes) : Prop := StringSpec.is_text m c v /\ slice_in (base M) (base M + N.of_nat (length D)) c.
Definition fixed_ok (c : cow) (v : bytes) : Prop := text_ok c v /\ is_borrowed c.
Definition kept (c : cow) (v : bytes) : Prop := is_borrowed c.
Definition domain_kept (c : cow) (v : bytes) : Prop := plain_names -> is_borrowed c.
(* a relation on results, for what holds always and for what holds before the last L bytes *)
Definition plain {A B} (K : (cow -> bytes -> Prop) -> (cow -> bytes -> Prop) -> A -> B -> Prop) (i j : bytes) (a : A) (b : B) : Prop :=
  K text_ok text_ok a b /\ (L <= length j -> K kept domain_kept a b).
(* the string v, at the start of i *)
Definition solid (i : bytes) (c : cow) (v : bytes) : Prop := exists p, c = Borrowed p (length v) /\ (v = [] \/ p = here M i).
(* all that was consumed, if it was quiet; or always *)
Definition whole (i j : bytes) (c : cow) (v : bytes) : Prop := text_ok c v /\ (L <= length j -> i = v ++ j /\ solid i c v).
Definition full (i j : bytes) (c : cow) (v : bytes) : Prop := text_ok c v /\ i = v ++ j /\ solid i c v.
Definition any (i j : bytes) (c : cow) (v : bytes) : Prop := text_ok c v.

Lemma tail_after : forall i j, tail i -> after i j -> tail j.
Proof. intros i j H1 H2. exact (after_trans _ _ _ H1 H2). Qed.
Lemma here_app : forall w j, tail (w ++ j) -> here M j = (here M (w ++ j) + N.of_nat (length w))%N.
Proof. intros w j H. apply after_len in H. unfold here. rewrite HT, app_length in *. lia. Qed.
Lemma at_slice : forall a w j p, at_address m p (a ++ w ++ j) -> at_address m (p + N.of_nat (length a)) w.
Proof.
  intros a w j p H k b Hk. rewrite <- (H (length a + k) b); [f_equal; lia|].
  rewrite nth_error_app2 by lia. replace (length a + k - length a) with k by lia. rewrite nth_error_app1; [exact Hk|]. apply nth_error_Some. congruence.
Qed.
Lemma at_here : forall w j, tail (w ++ j) -> at_address m (here M (w ++ j)) w.
Proof.
  intros w j [a Ha]. pose proof HA as H. rewrite Ha in H. apply at_slice in H. unfold here.
  replace (total M - length (w ++ j)) with (length a); [exact H|]. rewrite HT, Ha, !app_length. lia.
Qed.
Lemma text_slice : forall w j, tail (w ++ j) -> utf8_valid w = true -> text_ok (Borrowed (here M (w ++ j)) (length w)) w.
Proof.
  intros w j H U. split; [split; [exact U|]; split; [reflexivity|now apply at_here]|]. cbn. right. unfold here. apply after_len in H. rewrite app_length in *. lia.
Qed.
Lemma text_empty : text_ok (z_empty M) [].
Proof. split; [split; [reflexivity|]; split; [reflexivity|apply at_nil]|]. cbn. now left. Qed.
Lemma full_slice : forall w j, tail (w ++ j) -> utf8_valid w = true -> full (w ++ j) j (Borrowed (here M (w ++ j)) (length w)) w.
Proof. intros w j H U. split; [now apply text_slice|]. split; [reflexivity|]. exists (here M (w ++ j)). split; [reflexivity|now right]. Qed.
Lemma full_empty : forall i, full i i (z_empty M) [].
Proof. intros i. split; [apply text_empty|]. split; [reflexivity|]. exists (literal M). split; [reflexivity|now left]. Qed.
Lemma full_whole : forall i j c v, full i j c v -> whole i j c v.
Proof. intros i j c v (H1 & H2 & H3). split; [exact H1|]. intros _. now split. Qed.
Lemma solid_borrowed : forall i c v, solid i c v -> is_borrowed c.
Proof. intros i c v (p & -> & _). exact I. Qed.

Lemma add_text : forall c1 v1 c2 v2, text_ok c1 v1 -> text_ok c2 v2 -> exists s, add_string m c1 c2 = Ok s /\ text_ok s (v1 ++ v2).
Proof.
  intros c1 v1 c2 v2 [H1 I1] [H2 I2]. destruct (add_string_text m c1 c2 v1 v2 H1 H2) as (s & Hs & Ht). exists s. split; [exact Hs|]. split; [exact Ht|]. exact (add_string_in _ _ _ _ _ _ I1 I2 Hs).
Qed.
(* two slices, the one after the other *)
Lemma add_solid : forall i v1 v2 j c1 c2 s, tail i -> i = v1 ++ v2 ++ j -> solid i c1 v1 -> solid (v2 ++ j) c2 v2 -> add_string m c1 c2 = Ok s -> solid i s (v1 ++ v2).
Proof.
  intros i v1 v2 j c1 c2 s Ht -> (p1 & -> & H1) (p2 & -> & H2) H. cbn [add_string] in H. unfold solid.
  destruct (Nat.eqb_spec (length v2) 0) as [E2|E2].
  { destruct v2; [|discriminate]. injection H as <-. rewrite app_nil_r. now exists p1. }
  destruct (Nat.eqb_spec (length v1) 0) as [E1|E1].
  { destruct v1; [|discriminate]. injection H as <-. cbn [app]. exists p2. split; [reflexivity|]. exact H2. }
  destruct H1 as [->|H1]; [easy|]. destruct H2 as [->|H2]; [easy|]. pose proof (here_app v1 (v2 ++ j) Ht) as Hh. rewrite <- H1, <- H2 in Hh. rewrite <- Hh, N.eqb_refl in H.
  apply from_slice_is in H as ->. exists p1. rewrite app_length. split; [reflexivity|now right].
Qed.
Lemma add_whole : forall i j k c1 v1 c2 v2, tail i -> after j k -> whole i j c1 v1 -> whole j k c2 v2 -> exists s, add_string m c1 c2 = Ok s /\ whole i k s (v1 ++ v2).
Proof.
  intros i j k c1 v1 c2 v2 Ht Hj [T1 W1] [T2 W2]. destruct (add_text _ _ _ _ T1 T2) as (s & Hs & Hx). exists s. split; [exact Hs|]. split; [exact Hx|]. intros HL.
  apply after_len in Hj. destruct W1 as [E1 S1]; [lia|]. destruct W2 as [E2 S2]; [lia|]. subst i j. split; [now rewrite app_assoc|]. exact (add_solid _ _ _ _ _ _ _ Ht eq_refl S1 S2 Hs).
Qed.
Lemma add_full : forall i j k c1 v1 c2 v2, tail i -> full i j c1 v1 -> full j k c2 v2 -> exists s, add_string m c1 c2 = Ok s /\ full i k s (v1 ++ v2).
Proof.
  intros i j k c1 v1 c2 v2 Ht (T1 & E1 & S1) (T2 & E2 & S2). destruct (add_text _ _ _ _ T1 T2) as (s & Hs & Hx). exists s. split; [exact Hs|]. split; [exact Hx|].
  subst i j. split; [now rewrite app_assoc|]. exact (add_solid _ _ _ _ _ _ _ Ht eq_refl S1 S2 Hs).
Qed.

(* -- combinators -- *)
Lemma bind_p : forall A B A' B' (p : parser A) (q : parser B) R (Q : A' -> B' -> Prop) i k l, does p q R -> tail i ->
  (forall j a b, tail j -> after i j -> R i j a b -> rel Q (k (j, a)) (l (j, b))) -> rel Q (bind (p i) k) (bind (q i) l).
Proof.
  intros A B A' B' p q R Q i k l H Hi HK. eapply rel_bind; [exact (H i Hi)|]. intros [j a] [j' b] (E & Ha & HR). cbn in *. subst j'. apply HK; [exact (tail_after _ _ Hi Ha)|assumption..].
Qed.
Lemma attempt_p : forall A B A' B' (p : parser A) (q : parser B) R (Q : A' -> B' -> Prop) i k l u v, does p q R -> tail i ->
  (forall j a b, tail j -> after i j -> R i j a b -> rel Q (k (j, a)) (l (j, b))) -> rel Q u v -> rel Q (attempt (p i) k u) (attempt (q i) l v).
Proof.
  intros A B A' B' p q R Q i k l u v H Hi HK HU. eapply rel_attempt; [exact (H i Hi)| |exact HU]. intros [j a] [j' b] (E & Ha & HR). cbn in *. subst j'. apply HK; [exact (tail_after _ _ Hi Ha)|assumption..].
Qed.
Lemma weaken : forall A B (p : parser A) (q : parser B) (R Q : bytes -> bytes -> A -> B -> Prop), does p q R -> (forall i j a b, tail i -> after i j -> R i j a b -> Q i j a b) -> does p q Q.
Proof. intros A B p q R Q H HQ' i Hi. eapply rel_weaken; [|exact (H i Hi)]. intros [j a] [j' b] (E & Ha & HR). split; [exact E|]. split; [exact Ha|]. cbn in *. auto. Qed.

Lemma tag_does : forall e msg, does (tag e msg) (tag e msg) (fun i j _ _ => i = e ++ j).
Proof.
  intros e msg i Hi. apply rel_same. intros [j []] H. unfold tag in H. destruct (starts_with i e) eqn:S; [|discriminate].
  assert (E : exists r, i = e ++ r).
  { clear -S. revert i S. induction e as [|x e IH]; intros i S; [now exists i|]. destruct i as [|y i]; [discriminate|]. cbn in S. apply andb_prop in S as [S1 S2]. apply N.eqb_eq in S1. subst. destruct (IH i S2) as [r ->]. now exists r. }
  destruct E as [r ->]. unfold unchecked_from in H. rewrite app_length in H. destruct (Nat.ltb_spec (length e + length r) (length e)); [lia|].
  rewrite skipn_app, skipn_all, Nat.sub_diag in H. cbn in H. injection H as <-. split; [reflexivity|]. split; [now exists e|reflexivity].
Qed.
Definition same {A} (i j : bytes) (a b : A) : Prop := a = b.
Lemma tag_no_case_does : forall E e1 e2 msg, does (tag_no_case E e1 e2 msg) (tag_no_case E e1 e2 msg) same.
Proof.
  intros E e1 e2 msg i Hi. apply rel_same. intros [j []] H. unfold tag_no_case in H. destruct (_ && _); [discriminate|]. destruct (_ && _); [discriminate|]. destruct (_ <? _); [discriminate|].
  destruct (tag_no_case_loop _ _ _ _ _ _); try discriminate. cbn [bind] in H. unfold unchecked_from in H. destruct (_ <? _); [discriminate|]. cbn [bind] in H. injection H as <-.
  split; [reflexivity|]. split; [|reflexivity]. exists (firstn (length e1) i). cbn. symmetry. apply firstn_skipn.
Qed.
Lemma date_does : forall E, does (date_time E) (date_time E) same.
Proof. intros E i Hi. apply rel_same. intros [j d] H. apply GrammarFacts.date_conforms in H as (c & -> & _). split; [reflexivity|]. split; [now exists c|reflexivity]. Qed.

Lemma optional_does : forall A B (p : parser A) (q : parser B) R, does p q R ->
  does (optional p) (optional q) (fun i j x y => match x, y with Some a, Some b => R i j a b | None, None => j = i | _, _ => False end).
Proof.
  intros A B p q R H i Hi. unfold optional. eapply attempt_p; [exact H|exact Hi| |].
  - intros j a b Hj Ha HR. cbn. now split.
  - split; [reflexivity|]. split; [apply after_refl|reflexivity].
Qed.
Lemma match_nil : forall A B (R : bytes -> bytes -> A -> B -> Prop), does (match_parsers []) (match_parsers []) R.
Proof. intros A B R i Hi. reflexivity. Qed.
Lemma match_cons : forall A B (p : parser A) (q : parser B) ps qs R, does p q R -> does (match_parsers ps) (match_parsers qs) R -> does (match_parsers (p :: ps)) (match_parsers (q :: qs)) R.
Proof. intros A B p q ps qs R H Hs i Hi. cbn [match_parsers]. eapply attempt_p; [exact H|exact Hi| |exact (Hs i Hi)]. intros j a b Hj Ha HR. cbn. now split. Qed.
Lemma pmap_does : forall A B A' B' (f : A -> A') (g : B -> B') p q R (Q : bytes -> bytes -> A' -> B' -> Prop), does p q R -> (forall i j a b, R i j a b -> Q i j (f a) (g b)) -> does (pmap f p) (pmap g q) Q.
Proof. intros A B A' B' f g p q R Q H HQ' i Hi. unfold pmap. eapply bind_p; [exact H|exact Hi|]. intros j a b Hj Ha HR. cbn. split; [reflexivity|]. split; [exact Ha|]. cbn. auto. Qed.
Lemma pair_does : forall A B A' B' (p : parser A) (q : parser B) (p' : parser A') (q' : parser B') R Q, does p q R -> does p' q' Q ->
  does (pair_p p p') (pair_p q q') (fun i j x y => exists k, after i k /\ after k j /\ R i k (fst x) (fst y) /\ Q k j (snd x) (snd y)).
Proof.
  intros A B A' B' p q p' q' R Q H H' i Hi. unfold pair_p. eapply bind_p; [exact H|exact Hi|]. intros j a b Hj Ha HR. cbn beta iota. eapply bind_p; [exact H'|exact Hj|]. intros k c d Hk Hjk HQ'. cbn.
  split; [reflexivity|]. split; [exact (after_trans _ _ _ Ha Hjk)|]. exists j. now repeat split.
Qed.
Lemma prefixed_does : forall A B (p : parser A) (q : parser B) K pre, does p q (plain K) -> does (prefixed p pre) (prefixed q pre) (plain K).
Proof.
  intros A B p q K pre H i Hi. unfold prefixed. destruct (starts_with i pre); [|reflexivity]. unfold unchecked_from. destruct (_ <? _); [reflexivity|]. cbn [bind].
  assert (Ha : after i (skipn (length pre) i)) by (exists (firstn (length pre) i); symmetry; apply firstn_skipn).
  eapply rel_weaken; [|exact (H _ (tail_after _ _ Hi Ha))]. intros [j a] [j' b] (E & Hj & HR). split; [exact E|]. split; [exact (after_trans _ _ _ Ha Hj)|exact HR].
Qed.
(* the turns of a loop *)
Inductive chain {A B} (R : bytes -> bytes -> A -> B -> Prop) : bytes -> bytes -> list A -> list B -> Prop :=
| chain_nil : forall i, chain R i i [] []
| chain_cons : forall i j k a b l l', tail i -> after i j -> R i j a b -> chain R j k l l' -> chain R i k (a :: l) (b :: l').
Lemma chain_after : forall A B (R : bytes -> bytes -> A -> B -> Prop) i j l l', chain R i j l l' -> after i j.
Proof. intros A B R i j l l' H. induction H as [i|i j k a b l l' Hi Ha HR H IH]; [apply after_refl|exact (after_trans _ _ _ Ha IH)]. Qed.
Lemma many_fuel_does : forall A B (p : parser A) (q : parser B) R n, does p q R -> does (many_fuel n p) (many_fuel n q) (chain R).
Proof.
  intros A B p q R n H. induction n as [|n IH]; intros i Hi; [reflexivity|]. cbn [many_fuel]. eapply attempt_p; [exact H|exact Hi| |].
  - intros j a b Hj Ha HR. cbn beta iota. eapply bind_p; [exact IH|exact Hj|]. intros k l l' Hk Hjk Hc. cbn. split; [reflexivity|]. split; [exact (after_trans _ _ _ Ha Hjk)|]. exact (chain_cons _ _ _ _ _ _ _ _ Hi Ha HR Hc).
  - split; [reflexivity|]. split; [apply after_refl|constructor].
Qed.
Lemma many_does : forall A B (p : parser A) (q : parser B) R, does p q R -> does (many p) (many q) (chain R).
Proof. intros A B p q R H i Hi. exact (many_fuel_does _ _ p q R _ H i Hi). Qed.
Definition list_of {A B} (K : (cow -> bytes -> Prop) -> (cow -> bytes -> Prop) -> A -> B -> Prop) t d : list A -> list B -> Prop := Forall2 (K t d).
Definition opt_of {A B} (K : (cow -> bytes -> Prop) -> (cow -> bytes -> Prop) -> A -> B -> Prop) t d : option A -> option B -> Prop := like_option (K t d).
Lemma chain_plain : forall A B (K : (cow -> bytes -> Prop) -> (cow -> bytes -> Prop) -> A -> B -> Prop) i j l l', chain (plain K) i j l l' -> plain (list_of K) i j l l'.
Proof.
  intros A B K i j l l' H. induction H as [i|i j k a b l l' Hi Ha [H1 H2] H [IH1 IH2]]; [split; [constructor|intros _; constructor]|]. split; [constructor; assumption|]. intros HL. apply chain_after, after_len in H. constructor; [apply H2; lia|exact (IH2 HL)].
Qed.
Lemma many_plain : forall A B (p : parser A) (q : parser B) K, does p q (plain K) -> does (many p) (many q) (plain (list_of K)).
Proof. intros A B p q K H. eapply weaken; [exact (many_does _ _ _ _ _ H)|]. intros i j l l' _ _ Hc. now apply chain_plain. Qed.
Lemma many1_plain : forall A B (p : parser A) (q : parser B) K, does p q (plain K) -> does (many1 p) (many1 q) (plain (list_of K)).
Proof.
  intros A B p q K H i Hi. unfold many1. eapply bind_p; [exact H|exact Hi|]. intros j a b Hj Ha [H1 H2]. cbn beta iota. eapply bind_p; [exact (many_plain _ _ _ _ _ H)|exact Hj|]. intros k l l' Hk Hjk [H3 H4]. cbn.
  split; [reflexivity|]. split; [exact (after_trans _ _ _ Ha Hjk)|]. split; [constructor; assumption|]. cbn. intros HL. pose proof (after_len _ _ Hjk). constructor; [apply H2; lia|exact (H4 HL)].
Qed.
Lemma optional_plain : forall A B (p : parser A) (q : parser B) K, does p q (plain K) -> does (optional p) (optional q) (plain (opt_of K)).
Proof.
  intros A B p q K H. eapply weaken; [exact (optional_does _ _ _ _ _ H)|]. intros i j [a|] [b|] _ _ HR; [exact HR|easy..|]. split; [exact I|intros _; exact I].
Qed.
Lemma ignore_does : forall A B (p : parser A) (q : parser B) R, does p q R -> does (ignore_many p) (ignore_many q) same.
Proof. intros A B p q R H i Hi. unfold ignore_many. eapply bind_p; [exact (many_does _ _ _ _ _ H)|exact Hi|]. intros j a b Hj Ha _. cbn. now split. Qed.

(* -- strings -- *)
Lemma span_split : forall f i, i = fst (span f i) ++ snd (span f i).
Proof. intros f. induction i as [|c r IH]; [reflexivity|]. cbn. destruct (f c); [|reflexivity]. destruct (span f r) as [a b]. cbn in *. now rewrite IH at 1. Qed.
Lemma span_all : forall f i, Forall (fun c => f c = true) (fst (span f i)).
Proof. intros f. induction i as [|c r IH]; [constructor|]. cbn. destruct (f c) eqn:E; [|constructor]. destruct (span f r) as [a b]. cbn in *. now constructor. Qed.
Definition slice_of (f : byte -> bool) (i j : bytes) (s : str_slice) (v : bytes) : Prop := full i j (borrow s) v /\ s = (here M i, length v) /\ Forall (fun c => f c = true) v.
Lemma take_while_does : forall f, does (sliced M (take_while f)) (take_while f) (slice_of f).
Proof.
  intros f i Hi. unfold sliced, take_while. pose proof (span_split f i) as E. pose proof (span_all f i) as F. destruct (span f i) as [a r]. cbn [fst snd] in E, F. unfold str_unchecked. destruct (utf8_valid a) eqn:U; [|reflexivity]. cbn.
  subst i. split; [reflexivity|]. split; [now exists a|]. split; [|split; [reflexivity|exact F]]. now apply full_slice.
Qed.
Definition slice1_of (f : byte -> bool) (i j : bytes) (s : str_slice) (v : bytes) : Prop := slice_of f i j s v /\ v <> [].
Lemma take_while1_does : forall f, does (sliced M (take_while1 f)) (take_while1 f) (slice1_of f).
Proof.
  intros f i Hi. unfold sliced, take_while1. destruct i as [|c i]; [reflexivity|]. destruct (f c) eqn:Fc; [|reflexivity]. cbn [negb].
  pose proof (span_split f (c :: i)) as E. pose proof (span_all f (c :: i)) as F. assert (NE : fst (span f (c :: i)) <> []) by (cbn; rewrite Fc; now destruct (span f i)).
  destruct (span f (c :: i)) as [a r]. cbn [fst snd] in E, F, NE. unfold str_unchecked. destruct (utf8_valid a) eqn:U; [|reflexivity]. cbn [bind rel]. rewrite E in *.
  split; [reflexivity|]. split; [now exists a|]. split; [|exact NE]. split; [now apply full_slice|]. split; [reflexivity|exact F].
Qed.
Lemma borrowed_does : forall p q f, does (sliced M p) q (slice_of f) -> does (borrowed_slice M p) q full.
Proof.
  intros p q f H i Hi. specialize (H i Hi). unfold borrowed_slice, pmap. destruct (sliced M p i) as [[j s]|e|c], (q i) as [[j' v]|e'|c']; try easy. destruct H as (E & Ha & HR & _). cbn. now split.
Qed.
Lemma slice1_does : forall f, does (sliced M (take_while1 f)) (take_while1 f) (slice_of f).
Proof. intros f. eapply weaken; [apply take_while1_does|]. intros i j s v _ _ [H _]. exact H. Qed.
Lemma borrowed1_does : forall f, does (borrowed_slice M (take_while1 f)) (take_while1 f) full.
Proof. intros f. exact (borrowed_does _ _ _ (slice1_does f)). Qed.

(* one byte *)
Lemma one_byte : forall c i, tail (c :: i) -> utf8_valid [c] = true -> from_slice m (here M (c :: i)) 1 = Ok (Borrowed (here M (c :: i)) 1) /\ full (c :: i) i (Borrowed (here M (c :: i)) 1) [c].
Proof.
  intros c i Hi U. pose proof (full_slice [c] i Hi U) as F. split; [|exact F]. unfold from_slice. rewrite (read_at m [c]); [|exact (at_here [c] i Hi)]. cbn [bind]. unfold str_unchecked. now rewrite U.
Qed.
Lemma ascii_one : forall c, (c < 128)%N -> utf8_valid [c] = true.
Proof. intros c H. cbn. destruct (N.ltb_spec c 128); [reflexivity|lia]. Qed.
Lemma vchar_small : forall c, is_vchar c || is_wsp c = true -> (c < 128)%N.
Proof. intros c H. unfold is_vchar, is_wsp in H. lia. Qed.

(* a backslash is never quiet *)
Lemma loud : forall a j, tail (a ++ BACKSLASH :: j) -> forall k, after j k -> L <= length k -> False.
Proof.
  intros a j [b Hb] k [w ->] HL. destruct (HQ (b ++ a) (BACKSLASH :: w) k) as [H _]; [rewrite Hb, <- app_assoc; reflexivity|exact HL|]. apply H. now left.
Qed.
Lemma loud_fold : forall x j, is_wsp x = true -> tail (CRLF ++ x :: j) -> forall k, after j k -> L <= length k -> False.
Proof.
  intros x j Hx [b Hb] k [w ->] HL. destruct (HQ b (CRLF ++ x :: w) k) as [_ H]; [rewrite Hb; reflexivity|exact HL|]. apply H. exists [], x, w. split; [reflexivity|exact Hx].
Qed.

(* a string of a single byte after a backslash: text, but not what was consumed *)
Lemma quoted_pair_does : does (z_quoted_pair M) quoted_pair whole.
Proof.
  intros i Hi. unfold z_quoted_pair, quoted_pair. eapply bind_p; [apply tag_does|exact Hi|]. intros j [] [] Hj Ha Ei. cbn beta iota. destruct j as [|c j]; [reflexivity|]. destruct (is_vchar c || is_wsp c) eqn:V; [|reflexivity].
  unfold unchecked_from, unchecked_to. cbn [length]. change (S (length j) <? 1) with false. cbn [bind skipn firstn]. apply vchar_small in V. destruct (one_byte c j Hj (ascii_one c V)) as [-> F]. unfold str_unchecked. rewrite (ascii_one c V). cbn [bind rel].
  split; [reflexivity|]. split; [rewrite Ei; now exists [BACKSLASH; c]|]. cbn [fst snd]. split; [apply F|]. intros HL. exfalso. rewrite Ei in Hi. exact (loud [] (c :: j) Hi j (after_cons c j) HL).
Qed.
Lemma fws_does : does (z_fws M) fws whole.
Proof.
  intros i Hi. unfold z_fws, fws. eapply bind_p; [apply optional_does, pair_does; [apply take_while_does|apply tag_does]|exact Hi|]. intros j b b' Hj Ha HR. cbn beta iota.
  eapply bind_p; [apply take_while1_does|exact Hj|]. intros k [p n] v Hk Hjk [(F & Es & Fv) NE]. cbn beta iota. destruct b as [[sl u]|], b' as [[b u']|]; try easy; cbn [fst snd] in HR.
  - destruct HR as (j0 & Ha0 & Hj0 & (F0 & _ & _) & E0). apply rel_then. rewrite add_str_same. cbn [borrow] in F. destruct (add_text _ _ _ _ (proj1 F0) (proj1 F)) as (s & Hs & Hx). exists s. split; [exact Hs|]. cbn.
    split; [reflexivity|]. split; [exact (after_trans _ _ _ Ha Hjk)|]. cbn. split; [exact Hx|]. intros HL. exfalso. destruct v as [|x v]; [easy|]. inversion Fv as [|? ? Fx _]; subst.
    destruct F as (_ & Ej & _). rewrite Ej in *. apply (loud_fold x (v ++ k) Fx) with (k := k); [exact (tail_after _ _ Hi Ha0)|now exists v|exact HL].
  - subst j. cbn. split; [reflexivity|]. split; [exact Hjk|]. cbn. apply full_whole. exact F.
Qed.
Lemma fws_any : does (z_fws M) fws any.
Proof. eapply weaken; [apply fws_does|]. intros i j c v _ _ [H _]. exact H. Qed.
Ltac after_chain := first [assumption|apply after_refl|match goal with H : after ?i ?j |- after ?i ?k => apply (after_trans _ _ _ H); after_chain end].
Ltac step := eapply bind_p; [eauto with zc|eassumption|]; let j := fresh "j" in let a := fresh "a" in let b := fresh "b" in let H1 := fresh "Hj" in let H2 := fresh "Ha" in let H3 := fresh "HR" in intros j a b H1 H2 H3; cbn beta iota.
Ltac leaf := cbn [rel]; split; [reflexivity|]; split; [cbn [fst]; after_chain|]; cbn [fst snd].
Create HintDb zc discriminated.
Hint Resolve tag_does tag_no_case_does date_does optional_does match_nil match_cons pair_does ignore_does many_does quoted_pair_does fws_does borrowed1_does take_while_does take_while1_does : zc.
Lemma full_any : forall p q, does p q full -> does p q any.
Proof. intros p q H. eapply weaken; [exact H|]. intros i j c v _ _ (T & _). exact T. Qed.
Lemma whole_any : forall p q, does p q whole -> does p q any.
Proof. intros p q H. eapply weaken; [exact H|]. intros i j c v _ _ (T & _). exact T. Qed.
Lemma comment_d_does : forall d, does (z_comment_d M d) (comment_d d) any.
Proof.
  induction d as [|d IH]; intros i Hi; [reflexivity|]. cbn [z_comment_d comment_d].
  assert (C : does (match_parsers [borrowed_slice M (take_while1 is_ctext); z_quoted_pair M; z_comment_d M d]) (match_parsers [take_while1 is_ctext; quoted_pair; comment_d d]) any).
  { apply match_cons; [apply full_any, borrowed1_does|]. apply match_cons; [apply whole_any, quoted_pair_does|]. apply match_cons; [exact IH|apply match_nil]. }
  step. eapply bind_p; [eapply ignore_does, pair_does; [apply optional_does, fws_any|exact C]|eassumption|]. intros k [] [] Hk Hjk _. cbn beta iota. step. step. leaf. exact text_empty.
Qed.
Lemma comment_does : does (z_comment M) comment any.
Proof. intros i Hi. exact (comment_d_does _ i Hi). Qed.
Definition some_text (i j : bytes) (x : option cow) (v : bytes) : Prop := match x with Some c => text_ok c v | None => v = [] end.
Lemma fws_comment_does : does (z_fws_comment M) fws_comment some_text.
Proof.
  intros i Hi. unfold z_fws_comment, fws_comment. eapply bind_p; [apply optional_does, fws_any|exact Hi|]. intros j a b Hj Ha HR. cbn beta iota. eapply bind_p; [apply comment_does|eassumption|]. intros k c v Hk Hjk _. leaf.
  destruct a, b; easy.
Qed.
Lemma add_some_text : forall o v x w, text_ok o v -> some_text [] [] x w -> exists s, add_some M o x = Ok s /\ text_ok s (v ++ w).
Proof. intros o v [c|] w H1 H2; [exact (add_text _ _ _ _ H1 H2)|]. cbn in *. subst w. exists o. rewrite app_nil_r. now split. Qed.
Lemma add_all_text : forall i j l vs, chain some_text i j l vs -> forall o v, text_ok o v -> exists s, add_all M o l = Ok s /\ text_ok s (v ++ concat vs).
Proof.
  intros i j l vs H. induction H as [i|i j k a b l l' Hi Ha HR H IH]; intros o v Ho; cbn [add_all concat]; [exists o; rewrite app_nil_r; now split|].
  destruct (add_some_text o v a b Ho HR) as (s & -> & Hs). cbn [bind]. rewrite app_assoc. exact (IH s _ Hs).
Qed.
Lemma real_cfws_does : does (z_real_cfws M) real_cfws any.
Proof.
  intros i Hi. unfold z_real_cfws, real_cfws.
  assert (F : does (fun i => map_err (z_fws_comment M i) (Unknown "Expected at least one comment")) (fun i => map_err (fws_comment i) (Unknown "Expected at least one comment")) some_text).
  { intros k Hk. apply rel_map_err. exact (fws_comment_does k Hk). }
  eapply (bind_p _ _ _ _ _ _ _ _ i _ _ F Hi). intros j a b Hj Ha HR. cbn beta iota. eapply bind_p; [apply many_does, fws_comment_does|exact Hj|]. intros k l vs Hk Hjk HC. cbn beta iota.
  eapply bind_p; [apply optional_does, fws_any|exact Hk|]. intros n c d Hn Hkn HO. cbn beta iota.
  apply rel_then. destruct (add_some_text _ _ a b text_empty HR) as (s & Hs & T1). exists s. split; [exact Hs|]. apply rel_then. destruct (add_all_text _ _ _ _ HC _ _ T1) as (s2 & Hs2 & T2). exists s2. split; [exact Hs2|].
  apply rel_then. destruct (add_some_text s2 _ c (match d with Some s => s | None => [] end) T2) as (s3 & Hs3 & T3); [destruct c, d; easy|]. exists s3. split; [exact Hs3|]. leaf. cbn [app] in T3. rewrite <- app_assoc in T3. exact T3.
Qed.
Lemma cfws_does : does (z_cfws M) cfws any.
Proof. apply match_cons; [apply real_cfws_does|]. apply match_cons; [apply fws_any|apply match_nil]. Qed.
Hint Resolve cfws_does : zc.
Lemma skip_does : forall A B (Q : A -> B -> Prop) i k l, tail i -> (forall j, tail j -> after i j -> rel Q (k j) (l j)) -> rel Q (bind (z_skip_cfws M i) k) (bind (skip_cfws i) l).
Proof.
  intros A B Q i k l Hi HK. eapply (rel_bind _ _ _ _ (fun j j' => j = j' /\ tail j /\ after i j)).
  - unfold z_skip_cfws, skip_cfws. eapply attempt_p; [apply cfws_does|exact Hi| |].
    + intros j a b Hj Ha _. cbn. now split.
    + cbn. split; [reflexivity|]. split; [exact Hi|apply after_refl].
  - intros j j' (<- & Hj & Ha). auto.
Qed.

(* -- quoted strings, atoms, texts -- *)
Lemma chain_join : forall i j l vs, chain whole i j l vs -> forall i0 o v, tail i0 -> after i0 i -> whole i0 i o v -> exists s, join m o l = Ok s /\ whole i0 j s (v ++ concat vs).
Proof.
  intros i j l vs H. induction H as [i|i j k a b l l' Hi Ha HR H IH]; intros i0 o v H0 Ho W; cbn [join concat]; [exists o; rewrite app_nil_r; now split|].
  destruct (add_whole _ _ _ _ _ _ _ H0 Ha W HR) as (s & -> & Hs). cbn [bind]. rewrite app_assoc. exact (IH i0 s _ H0 (after_trans _ _ _ Ho Ha) Hs).
Qed.
Lemma collect_does : forall p q, does p q whole -> does (z_collect_many M p) (collect_many q) whole.
Proof.
  intros p q H i Hi. unfold z_collect_many, collect_many. eapply bind_p; [apply many_does, H|exact Hi|]. intros j l vs Hj Ha HC. cbn beta iota.
  destruct (chain_join _ _ _ _ HC i (z_empty M) [] Hi (after_refl i) (full_whole _ _ _ _ (full_empty i))) as (s & Hs & W). apply rel_then. exists s. split; [exact Hs|]. leaf. exact W.
Qed.
Lemma chain_join_any : forall i j l vs, chain any i j l vs -> forall o v, text_ok o v -> exists s, join m o l = Ok s /\ text_ok s (v ++ concat vs).
Proof.
  intros i j l vs H. induction H as [i|i j k a b l l' Hi Ha HR H IH]; intros o v W; cbn [join concat]; [exists o; rewrite app_nil_r; now split|].
  destruct (add_text _ _ _ _ W HR) as (s & -> & Hs). cbn [bind]. rewrite app_assoc. exact (IH s _ Hs).
Qed.
Lemma collect_any : forall p q, does p q any -> does (z_collect_many M p) (collect_many q) any.
Proof.
  intros p q H i Hi. unfold z_collect_many, collect_many. eapply bind_p; [apply many_does, H|exact Hi|]. intros j l vs Hj Ha HC. cbn beta iota.
  destruct (chain_join_any _ _ _ _ HC _ _ text_empty) as (s & Hs & W). apply rel_then. exists s. split; [exact Hs|]. leaf. exact W.
Qed.
Lemma collect_pair_does : forall p q p' q', does p q whole -> does p' q' whole -> does (z_collect_pair M p p') (collect_pair q q') whole.
Proof.
  intros p q p' q' H H' i Hi. unfold z_collect_pair, collect_pair. eapply bind_p; [exact H|exact Hi|]. intros j a b Hj Ha W. cbn beta iota. eapply bind_p; [exact H'|exact Hj|]. intros k c d Hk Hjk W'. cbn beta iota.
  destruct (add_whole _ _ _ _ _ _ _ Hi Hjk W W') as (s & Hs & Ws). apply rel_then. exists s. split; [exact Hs|]. leaf. exact Ws.
Qed.
Lemma quoted_step_does : does (z_quoted_string_step M) quoted_string_step whole.
Proof.
  intros i Hi. unfold z_quoted_string_step, quoted_string_step.
  assert (F : does (fun i => attempt (z_fws M i) (fun '(r, s) => let* o := add_string m (z_empty M) s in Ok (r, o)) (Ok (i, z_empty M))) (fun i => attempt (fws i) (fun '(r, s) => Ok (r, s)) (Ok (i, []))) whole).
  { intros k Hk. eapply attempt_p; [apply fws_does|exact Hk| |].
    - intros j a b Hj Ha W. destruct (add_whole k k j (z_empty M) [] a b Hk Ha (full_whole _ _ _ _ (full_empty k)) W) as (s & Hs & Ws). apply rel_then. exists s. split; [exact Hs|]. leaf. exact Ws.
    - leaf. apply full_whole, full_empty. }
  eapply (bind_p _ _ _ _ _ _ _ _ i _ _ F Hi). intros j a b Hj Ha W. cbn beta iota. eapply attempt_p; [apply take_while1_does|exact Hj| |].
  - intros k [p n] v Hk Hjk [(Fs & _ & _) _]. cbn beta iota. apply rel_then. rewrite add_str_same. destruct (add_whole _ _ _ _ _ _ _ Hi Hjk W (full_whole _ _ _ _ Fs)) as (s & Hs & Ws). exists s. split; [exact Hs|]. leaf. exact Ws.
  - eapply attempt_p; [apply quoted_pair_does|exact Hj| |reflexivity]. intros k c v Hk Hjk W'. cbn beta iota. apply rel_then. destruct (add_whole _ _ _ _ _ _ _ Hi Hjk W W') as (s & Hs & Ws). exists s. split; [exact Hs|]. leaf. exact Ws.
Qed.
Definition text_like (t d : cow -> bytes -> Prop) := t.
Lemma mark_does : forall A B (Q : A -> B -> Prop) i x k l e, tail i -> (forall j, i = x :: j -> tail j -> after i j -> rel Q (k j) (l j)) ->
  rel Q (if starts_with i [x] then bind (index_from i 1) k else Err e) (if starts_with i [x] then bind (index_from i 1) l else Err e).
Proof.
  intros A B Q i x k l e Hi HK. destruct i as [|c i]; [reflexivity|]. destruct (starts_with (c :: i) [x]) eqn:S; [|reflexivity]. cbn in S. apply andb_prop in S as [S _]. apply N.eqb_eq in S. subst c.
  unfold index_from. cbn [length]. change (S (length i) <? 1) with false. cbn [bind skipn]. apply HK; [reflexivity|exact (tail_after _ _ Hi (after_cons x i))|apply after_cons].
Qed.
Lemma quoted_string_does : does (z_quoted_string M) quoted_string (plain text_like).
Proof.
  intros i Hi. unfold z_quoted_string, quoted_string. apply skip_does; [exact Hi|]. intros i1 H1 A1. apply mark_does; [exact H1|]. intros i2 _ H2 A2. eapply bind_p; [apply collect_does, quoted_step_does|exact H2|]. intros i3 o v H3 A3 W. cbn beta iota.
  assert (F : rel (out (fun i' j c v => after i2 i' /\ whole i2 j c v) i3) (attempt (z_fws M i3) (fun '(r, s) => let* o := add_string m o s in Ok (r, o)) (Ok (i3, o))) (attempt (fws i3) (fun '(r, s) => Ok (r, v ++ s)) (Ok (i3, v)))).
  { eapply attempt_p; [apply fws_does|exact H3| |].
    - intros j a b Hj Ha W'. cbn beta iota. destruct (add_whole _ _ _ _ _ _ _ H2 Ha W W') as (s & Hs & Ws). apply rel_then. exists s. split; [exact Hs|]. leaf. now split.
    - leaf. now split. }
  eapply rel_bind; [exact F|]. intros [i4 o4] [i4' v4] (E & A4 & _ & W4). cbn [fst snd] in *. subst i4'. assert (H4 : tail i4) by exact (tail_after _ _ H3 A4).
  apply mark_does; [exact H4|]. intros i5 _ H5 A5. apply skip_does; [exact H5|]. intros i6 H6 A6. leaf. split; [apply W4|]. intros HL. apply after_len in A5. apply after_len in A6. destruct W4 as [_ W4]. destruct W4 as [_ S4]; [lia|]. exact (solid_borrowed _ _ _ S4).
Qed.
Lemma full_fixed : forall i j c v, full i j c v -> fixed_ok c v.
Proof. intros i j c v (T & _ & S). split; [exact T|exact (solid_borrowed _ _ _ S)]. Qed.
Lemma fixed_plain : forall i j c v, fixed_ok c v -> plain text_like i j c v.
Proof. intros i j c v [T B]. split; [exact T|intros _; exact B]. Qed.
Lemma atom_does : does (z_atom M) atom (plain text_like).
Proof.
  intros i Hi. unfold z_atom, atom. apply skip_does; [exact Hi|]. intros i1 H1 A1.
  assert (F : does (fun i => map_err (borrowed_slice M (take_while1 is_atext) i) (Unknown "Atom required")) (fun i => map_err (take_while1 is_atext i) (Unknown "Atom required")) full).
  { intros k Hk. apply rel_map_err. exact (borrowed1_does _ k Hk). }
  eapply (bind_p _ _ _ _ _ _ _ _ i1 _ _ F H1). intros i2 a b H2 A2 HF. cbn beta iota. apply skip_does; [exact H2|]. intros i3 H3 A3. leaf. exact (fixed_plain _ _ _ _ (full_fixed _ _ _ _ HF)).
Qed.
Definition dot_step (i j : bytes) (x : cow * str_slice) (v : bytes) : Prop := exists k w, full i k (fst x) (bs ".") /\ full k j (borrow (snd x)) w /\ v = bs "." ++ w.
Lemma dot_step_does : forall E, does (z_dot_atom_step M E) (dot_atom_step E) dot_step.
Proof.
  intros E i Hi. unfold z_dot_atom_step, dot_atom_step. change (bs ".") with [46%N]. apply mark_does; [exact Hi|]. intros j Ej Hj Ha. subst i.
  assert (F : does (fun rest => if f_compatibility_fixes E then sliced M (take_while is_atext) rest else sliced M (take_while1 is_atext) rest) (fun rest => if f_compatibility_fixes E then take_while is_atext rest else take_while1 is_atext rest) (slice_of is_atext)).
  { intros k Hk. destruct (f_compatibility_fixes E); [exact (take_while_does _ k Hk)|exact (slice1_does _ k Hk)]. }
  eapply (bind_p _ _ _ _ _ _ _ _ j _ _ F Hj). intros k s v Hk Hjk (Fs & _ & _). cbn beta iota. destruct (one_byte 46%N j Hi eq_refl) as [-> Fd]. cbn [bind]. leaf. exists j, v. split; [exact Fd|]. split; [exact Fs|reflexivity].
Qed.
Lemma dot_join : forall i j l vs, chain dot_step i j l vs -> forall i0 o v, tail i0 -> after i0 i -> full i0 i o v -> exists s, z_dot_atom_join M o l = Ok s /\ full i0 j s (v ++ concat vs).
Proof.
  intros i j l vs H. induction H as [i|i j k a b l l' Hi Ha HR H IH]; intros i0 o v H0 Ho W; cbn [z_dot_atom_join concat]; [exists o; rewrite app_nil_r; now split|].
  destruct a as [dot [p n]]. destruct HR as (i1 & w & F1 & F2 & ->). cbn [fst snd borrow] in *.
  destruct (add_full _ _ _ _ _ _ _ H0 W F1) as (s & -> & Hs). cbn [bind]. rewrite add_str_same. destruct (add_full _ _ _ _ _ _ _ H0 Hs F2) as (s2 & -> & Hs2). cbn [bind].
  destruct (IH i0 s2 _ H0 (after_trans _ _ _ Ho Ha) Hs2) as (s3 & E3 & F3). exists s3. split; [exact E3|]. now rewrite !app_assoc in *.
Qed.
Lemma dot_atom_text_does : forall E, does (z_dot_atom_text M E) (dot_atom_text E) full.
Proof.
  intros E i Hi. unfold z_dot_atom_text, dot_atom_text, collect_many. eapply bind_p; [apply borrowed1_does|exact Hi|]. intros j a b Hj Ha F. cbn beta iota.
  assert (G : rel (out (chain dot_step) j) (many (z_dot_atom_step M E) j) (many (dot_atom_step E) j)) by exact (many_does _ _ _ _ _ (dot_step_does E) j Hj).
  destruct (many (z_dot_atom_step M E) j) as [[k l]|e|c], (many (dot_atom_step E) j) as [[k' vs]|e'|c']; try easy. destruct G as (Ek & Hjk & HC). cbn [fst snd bind] in *. subst k'.
  destruct (dot_join _ _ _ _ HC i a b Hi Ha F) as (s & -> & Fs). cbn [bind]. leaf. exact Fs.
Qed.
Lemma dot_atom_does : forall E, does (z_dot_atom M E) (dot_atom E) (plain text_like).
Proof.
  intros E i Hi. unfold z_dot_atom, dot_atom. apply skip_does; [exact Hi|]. intros i1 H1 A1. eapply bind_p; [apply dot_atom_text_does|exact H1|]. intros i2 a b H2 A2 HF. cbn beta iota. apply skip_does; [exact H2|]. intros i3 H3 A3. leaf.
  exact (fixed_plain _ _ _ _ (full_fixed _ _ _ _ HF)).
Qed.
Lemma word_does : does (z_word M) word (plain text_like).
Proof. apply match_cons; [apply atom_does|]. apply match_cons; [apply quoted_string_does|apply match_nil]. Qed.
Lemma unstructured_step_does : does (z_unstructured_step M) unstructured_step whole.
Proof.
  intros i Hi. unfold z_unstructured_step, unstructured_step. apply collect_pair_does; [| |exact Hi].
  - intros k Hk. eapply attempt_p; [apply fws_does|exact Hk| |]; [|leaf; apply full_whole, full_empty]. intros j a b Hj Ha W. leaf. exact W.
  - eapply weaken; [apply borrowed1_does|]. intros k j c v _ _ F. exact (full_whole _ _ _ _ F).
Qed.
Lemma wsp_does : does (take_while1 is_wsp) (take_while1 is_wsp) same.
Proof.
  intros i Hi. apply rel_same. intros [j a] H. split; [reflexivity|]. split; [|reflexivity]. cbn [fst]. pose proof (slice1_does is_wsp i Hi) as R. unfold sliced in R. rewrite H in R. cbn in R. now destruct R as (_ & Ha & _).
Qed.
Lemma unstructured_does : does (z_unstructured M) unstructured (plain text_like).
Proof.
  intros i Hi. unfold z_unstructured, unstructured. eapply bind_p; [apply collect_does, unstructured_step_does|exact Hi|]. intros j a b Hj Ha W. cbn beta iota. eapply bind_p; [apply ignore_does with (R := same), wsp_does|exact Hj|]. intros k [] [] Hk Hjk _. leaf.
  split; [apply W|]. intros HL. apply after_len in Hjk. destruct W as [_ W]. destruct W as [_ S]; [lia|]. exact (solid_borrowed _ _ _ S).
Qed.

(* -- addresses -- *)
Definition domain_like (t d : cow -> bytes -> Prop) := d.
Definition id_like (t d : cow -> bytes -> Prop) := like_id fixed_ok.
Definition eq_like {A} (t d : cow -> bytes -> Prop) (a b : A) := a = b.
(* the lengths of what is left, and the two halves of the facts about the results *)
Ltac lens := repeat match goal with H : after ?i ?j |- _ => apply after_len in H end.
Ltac halves := repeat match goal with H : plain _ _ _ _ _ |- _ => let H1 := fresh "P" in let H2 := fresh "Q" in destruct H as [H1 H2] end.
Ltac settle := leaf; halves; split; [|let HL := fresh "HL" in intros HL; lens; repeat match goal with H : (L <= length _)%nat -> _ |- _ => specialize (H ltac:(lia)) end].
Lemma no_fold_does : does (z_no_fold_litteral M) no_fold_litteral (fun i j c v => fixed_ok c v).
Proof.
  intros i Hi. unfold z_no_fold_litteral, no_fold_litteral. step. eapply bind_p; [apply (borrowed_does _ _ _ (take_while_does is_dtext))|eassumption|]. intros k c v Hk Hjk F. cbn beta iota. step. leaf. exact (full_fixed _ _ _ _ F).
Qed.
Lemma message_id_does : forall E, does (z_message_id M E) (message_id E) (plain id_like).
Proof.
  intros E i Hi. unfold z_message_id, message_id. step. step. eapply bind_p; [apply dot_atom_text_does|eassumption|]. intros k c v Hk Hjk F. cbn beta iota. step.
  assert (G : does (match_parsers [z_dot_atom_text M E; z_no_fold_litteral M]) (match_parsers [dot_atom_text E; no_fold_litteral]) (fun i j c v => fixed_ok c v)).
  { apply match_cons; [|apply match_cons; [apply no_fold_does|apply match_nil]]. eapply weaken; [apply dot_atom_text_does|]. intros i' j' x y _ _ H. exact (full_fixed _ _ _ _ H). }
  eapply bind_p; [exact G|eassumption|]. intros k2 c2 v2 Hk2 Hjk2 F2. cbn beta iota. step. step. leaf.
  assert (X : like_id fixed_ok (c, c2) (v, v2)) by (split; [exact (full_fixed _ _ _ _ F)|exact F2]). split; [exact X|intros _; exact X].
Qed.
Lemma local_does : forall E, does (z_local M E) (local_part E) (plain text_like).
Proof. intros E. apply match_cons; [apply dot_atom_does|]. apply match_cons; [apply quoted_string_does|apply match_nil]. Qed.
Lemma domain_step_does : does (z_domain_literal_step M) domain_literal_step any.
Proof.
  intros i Hi. unfold z_domain_literal_step, domain_literal_step. step. eapply rel_weaken; [|exact (borrowed1_does is_dtext _ Hj)]. intros [k c] [k' v] (E & Ha2 & F). split; [exact E|]. split; [exact (after_trans _ _ _ Ha Ha2)|apply F].
Qed.
Lemma domain_literal_does : does (z_domain_literal M) domain_literal (plain domain_like).
Proof.
  intros i Hi. unfold z_domain_literal, domain_literal. step. step. rename HR0 into Eo. assert (To := Hj). eapply bind_p; [apply collect_any, domain_step_does|eassumption|]. intros k c v Hk Hjk T. cbn beta iota. step. step. step. leaf.
  split; [exact T|]. intros HL X. exfalso. rewrite Eo in To. destruct To as [w Hw].
  assert (Q : after j0 j3) by after_chain. destruct Q as [w2 Q2]. rewrite Q2 in Hw. apply (HN X w (bs "[" ++ w2) j3); [rewrite Hw; now rewrite <- !app_assoc|exact HL|now left].
Qed.
Lemma domain_does : forall E, does (z_domain_p M E) (domain E) (plain domain_like).
Proof.
  intros E. apply match_cons; [|apply match_cons; [apply domain_literal_does|apply match_nil]]. eapply weaken; [apply dot_atom_does|]. intros i j c v _ _ [T B]. split; [exact T|]. intros HL _. exact (B HL).
Qed.
Hint Resolve word_does local_does domain_does message_id_does : zc.
Lemma addr_spec_does : forall E, does (z_addr_spec M E) (addr_spec E) (plain like_address).
Proof. intros E i Hi. unfold z_addr_spec, addr_spec. step. step. step. settle; split; assumption. Qed.
Hint Resolve addr_spec_does : zc.
Lemma angle_addr_does : forall E, does (z_angle_addr M E) (angle_addr E) (plain like_address).
Proof. intros E i Hi. unfold z_angle_addr, angle_addr. step. step. step. step. step. settle; assumption. Qed.
Hint Resolve angle_addr_does : zc.
Variable E : env.
Hypothesis HK : env_ok E.
(* with mime there is no start of an encoded word either *)
Hypothesis HE : f_mime E = true -> forall a w j, D = a ++ w ++ j -> L <= length j -> ~ exists x y, w = x ++ bs "=?" ++ y.

(* -- encoded words -- *)
Definition loud_text (i j : bytes) (c : cow) (v : bytes) : Prop := text_ok c v /\ ~ L <= length j.
Lemma loud_whole : forall i j c v, loud_text i j c v -> whole i j c v.
Proof. intros i j c v [T N]. split; [exact T|]. intros HL. contradiction. Qed.
Lemma whole_plain : forall i j c v, whole i j c v -> plain text_like i j c v.
Proof. intros i j c v [T W]. split; [exact T|]. intros HL. exact (solid_borrowed _ _ _ (proj2 (W HL))). Qed.
Lemma owned_ok : forall v, utf8_valid v = true -> text_ok (Owned v) v.
Proof. intros v U. split; [split; [exact U|reflexivity]|exact I]. Qed.
Lemma encoded_word_does : f_mime E = true -> does (z_encoded_word E) (encoded_word E) loud_text.
Proof.
  intros HM i Hi. unfold z_encoded_word, pmap. pose proof (SoundAddr.sound_encoded_word E (fun _ => True) i) as S.
  destruct (encoded_word E i) as [[r v]|e|c]; [|reflexivity..]. cbn [bind rel]. destruct S as (c & -> & S).
  split; [reflexivity|]. split; [now exists c|]. cbn [fst snd]. split.
  - apply owned_ok. destruct S. eapply TextFacts.charset_utf8; eauto.
  - intros HL. apply WriteFacts.ew_start in S as [y ->]. destruct Hi as [a Ha]. rewrite <- app_assoc in Ha. apply (HE HM a (bs "=?" ++ y) r Ha HL). now exists [], y.
Qed.
Lemma phrase_word_does : does (z_phrase_word M E) (phrase_word E) (plain text_like).
Proof.
  unfold z_phrase_word, phrase_word. destruct (bool_dec (f_mime E) true) as [HM|HM]; [|apply not_true_is_false in HM; rewrite HM; apply word_does]. rewrite HM. apply match_cons; [|apply match_cons; [apply word_does|apply match_nil]].
  intros i Hi. step. eapply rel_weaken; [|exact (encoded_word_does HM _ Hj)]. intros [k c] [k' v] (Ek & Hk & W). split; [exact Ek|]. split; [exact (after_trans _ _ _ Ha Hk)|]. exact (whole_plain _ _ _ _ (loud_whole _ _ _ _ W)).
Qed.
Lemma phrase_e : does (z_phrase M E) (phrase E) (plain (list_of text_like)).
Proof. apply many1_plain, phrase_word_does. Qed.
Hint Resolve phrase_e : zc.
Definition step_like (i j : bytes) (x : cow * bool) (y : bytes * bool) : Prop := whole i j (fst x) (fst y) /\ snd x = snd y.
Lemma mime_step_does : f_mime E = true -> forall b, does (z_mime_unstructured_step M E b) (mime_unstructured_step E b) step_like.
Proof.
  intros HM b i Hi. unfold z_mime_unstructured_step, mime_unstructured_step.
  assert (F : does (fun i => attempt (z_fws M i) (fun ra => Ok ra) (Ok (i, z_empty M))) (fun i => attempt (fws i) (fun ra => Ok ra) (Ok (i, []))) whole).
  { intros k Hk. eapply attempt_p; [apply fws_does|exact Hk| |]; [|leaf; apply full_whole, full_empty]. intros j x y Hj Ha W. leaf. exact W. }
  eapply (bind_p _ _ _ _ _ _ _ _ i _ _ F Hi). intros j a v Hj Ha W. cbn beta iota. eapply attempt_p; [apply (encoded_word_does HM)|exact Hj| |].
  - intros k c d Hk Hjk W'. destruct b.
    + leaf. split; [|reflexivity]. split; [apply W'|]. intros HL. destruct W' as [_ N]. contradiction.
    + apply rel_then. destruct (add_whole _ _ _ _ _ _ _ Hi Hjk W (loud_whole _ _ _ _ W')) as (s & Hs & Ws). exists s. split; [exact Hs|]. leaf. split; [exact Ws|reflexivity].
  - eapply attempt_p; [apply take_while1_does|exact Hj| |reflexivity]. intros k [p n] d Hk Hjk [(Fs & _ & _) _]. cbn beta iota. apply rel_then. rewrite add_str_same.
    destruct (add_whole _ _ _ _ _ _ _ Hi Hjk W (full_whole _ _ _ _ Fs)) as (s & Hs & Ws). exists s. split; [exact Hs|]. leaf. split; [exact Ws|reflexivity].
Qed.
Lemma mime_loop_does : f_mime E = true -> forall n b, does (z_mime_unstructured_loop M E n b) (mime_unstructured_loop E n b) (fun i j l v => exists vs, chain whole i j l vs /\ v = concat vs).
Proof.
  intros HM n. induction n as [|n IH]; intros b i Hi; [reflexivity|]. cbn [z_mime_unstructured_loop mime_unstructured_loop]. eapply attempt_p; [apply (mime_step_does HM b)|exact Hi| |].
  - intros j [c f] [v f'] Hj Ha [W Ef]. cbn [fst snd] in *. subst f'. eapply bind_p; [exact (IH f)|exact Hj|]. intros k l v' Hk Hjk (vs & HC & ->). cbn beta iota. leaf. exists (v :: vs). split; [|reflexivity]. exact (chain_cons _ _ _ _ _ _ _ _ Hi Ha W HC).
  - leaf. exists []. split; [constructor|reflexivity].
Qed.
Lemma mime_unstructured_does : f_mime E = true -> does (z_mime_unstructured M E) (mime_unstructured E) (plain text_like).
Proof.
  intros HM i Hi. unfold z_mime_unstructured, mime_unstructured. eapply bind_p; [apply (mime_loop_does HM)|exact Hi|]. intros j l v Hj Ha (vs & HC & ->). cbn beta iota.
  destruct (chain_join _ _ _ _ HC i (z_empty M) [] Hi (after_refl i) (full_whole _ _ _ _ (full_empty i))) as (s & Hs & W). apply rel_then. exists s. split; [exact Hs|].
  eapply bind_p; [apply ignore_does with (R := same), wsp_does|exact Hj|]. intros k [] [] Hk Hjk _. leaf. destruct (whole_plain _ _ _ _ W) as [P Q]. split; [exact P|]. intros HL. apply after_len in Hjk. apply Q. lia.
Qed.
Lemma name_addr_does : does (z_name_addr M E) (name_addr E) (plain like_mailbox).
Proof. intros i Hi. unfold z_name_addr, name_addr. eapply bind_p; [apply optional_plain, phrase_e|exact Hi|]. intros j a b Hj Ha HR. cbn beta iota. step. settle; split; assumption. Qed.
Lemma mailbox_does : does (z_mailbox M E) (mailbox E) (plain like_mailbox).
Proof.
  apply match_cons; [apply name_addr_does|]. apply match_cons; [|apply match_nil]. eapply pmap_does; [apply addr_spec_does|]. intros i j a b [P Q]. split; [split; [exact I|exact P]|]. intros HL. split; [exact I|exact (Q HL)].
Qed.
Lemma comma_does : forall A B (p : parser A) (q : parser B) K, does p q (plain K) -> does (fun i => let* (i, b) := p i in let* (i, l) := many (prefixed p (bs ",")) i in Ok (i, b :: l)) (fun i => let* (i, b) := q i in let* (i, l) := many (prefixed q (bs ",")) i in Ok (i, b :: l)) (plain (list_of K)).
Proof. intros A B p q K H i Hi. eapply bind_p; [exact H|exact Hi|]. intros j a b Hj Ha HR. cbn beta iota. eapply bind_p; [apply many_plain, prefixed_does, H|exact Hj|]. intros k l l' Hk Hjk HL'. cbn beta iota. settle; constructor; assumption. Qed.
Lemma mailbox_list_does : does (z_mailbox_list M E) (mailbox_list E) (plain (list_of like_mailbox)).
Proof. exact (comma_does _ _ _ _ _ mailbox_does). Qed.
Definition group_like (t d : cow -> bytes -> Prop) : list cow * list z_mailbox_t -> list bytes * list mailbox_t -> Prop := like_pair (Forall2 t) (Forall2 (like_mailbox t d)).
Lemma group_does : does (z_group M E) (group E) (plain group_like).
Proof.
  intros i Hi. unfold z_group, group. step. step.
  assert (F : does (fun i => attempt (z_mailbox_list M E i) (fun ra => Ok ra) (attempt (z_cfws M i) (fun '(i', _) => Ok (i', [])) (Ok (i, [])))) (fun i => attempt (mailbox_list E i) (fun ra => Ok ra) (attempt (cfws i) (fun '(i', _) => Ok (i', [])) (Ok (i, [])))) (plain (list_of like_mailbox))).
  { intros k Hk. eapply attempt_p; [apply mailbox_list_does|exact Hk| |]. { intros k2 x y Hk2 Ha2 HR2. leaf. exact HR2. }
    eapply attempt_p; [apply cfws_does|exact Hk| |]. { intros k2 x y Hk2 Ha2 _. leaf. split; [constructor|intros _; constructor]. } leaf. split; [constructor|intros _; constructor]. }
  eapply (bind_p _ _ _ _ _ _ _ _ j0 _ _ F); [assumption|]. intros k l l' Hk Hjk HL'. cbn beta iota. step. step. settle; split; assumption.
Qed.
Lemma address_does : does (z_address_p M E) (Address.address E) (plain like_entry).
Proof.
  intros i Hi. unfold z_address_p, Address.address. eapply attempt_p; [apply mailbox_does|exact Hi| |]. { intros j a b Hj Ha HR. leaf. exact HR. }
  eapply attempt_p; [apply group_does|exact Hi| |reflexivity]. intros j a b Hj Ha HR. leaf. exact HR.
Qed.
Lemma address_list_does : does (z_address_list M E) (address_list E) (plain (list_of like_entry)).
Proof. exact (comma_does _ _ _ _ _ address_does). Qed.

(* -- headers -- *)
Lemma header_does : forall A B (p : parser A) (q : parser B) K e1 e2 x y, does p q (plain K) -> does (header E e1 e2 x p y) (header E e1 e2 x q y) (plain K).
Proof. intros A B p q K e1 e2 x y H i Hi. unfold header. step. eapply bind_p; [exact H|eassumption|]. intros k c d Hk Hjk HR'. cbn beta iota. step. settle; assumption. Qed.
Lemma eq_does : forall A (p q : parser A), does p q same -> does p q (plain eq_like).
Proof. intros A p q H. eapply weaken; [exact H|]. intros i j a b _ _ Eq. split; [exact Eq|intros _; exact Eq]. Qed.
Lemma field_date_does : does (field_date E) (field_date E) (plain eq_like).
Proof. apply header_does, eq_does, date_does. Qed.
Lemma bcc_does : does (z_bcc_value M E) (bcc_value E) (plain (list_of like_entry)).
Proof.
  intros i Hi. unfold z_bcc_value, bcc_value. eapply attempt_p; [apply address_list_does|exact Hi| |]. { intros j a b Hj Ha HR. leaf. exact HR. }
  eapply attempt_p; [apply cfws_does|exact Hi| |reflexivity]. intros j a b Hj Ha _. leaf. split; [constructor|intros _; constructor].
Qed.
Lemma keywords_does : does (z_keywords_value M E) (keywords_value E) (plain (list_of (list_of text_like))).
Proof. exact (comma_does _ _ _ _ _ phrase_e). Qed.
Lemma text_value_does : does (z_text_value M E) (text_value E) (plain text_like).
Proof. unfold z_text_value, text_value. destruct (bool_dec (f_mime E) true) as [HM|HM]; [rewrite HM; exact (mime_unstructured_does HM)|apply not_true_is_false in HM; rewrite HM; apply unstructured_does]. Qed.
Lemma resent_does : forall A B (p : parser A) (q : parser B) K x, does p q (plain K) -> does (resent E x p) (resent E x q) (plain K).
Proof.
  intros A B p q K x H i Hi. unfold resent. step. eapply rel_weaken; [|exact (H _ Hj)]. intros [k c] [k' v] (Eq & Ha2 & F). split; [exact Eq|]. split; [exact (after_trans _ _ _ Ha Ha2)|exact F].
Qed.
Definition trace_field_like t d := like_trace_field t d fixed_ok.
Lemma pmap_plain : forall A B A' B' (f : A -> A') (g : B -> B') p q K (K' : (cow -> bytes -> Prop) -> (cow -> bytes -> Prop) -> A' -> B' -> Prop), does p q (plain K) -> (forall t d a b, K t d a b -> K' t d (f a) (g b)) -> does (pmap f p) (pmap g q) (plain K').
Proof. intros A B A' B' f g p q K K' H HX. eapply pmap_does; [exact H|]. intros i j a b [P Q]. split; [exact (HX _ _ _ _ P)|]. intros HL. exact (HX _ _ _ _ (Q HL)). Qed.
Ltac mapped := eapply pmap_plain; [|intros t d a b X; exact X].
Lemma resent_field_does : does (z_resent_field M E) (resent_field E) (plain trace_field_like).
Proof.
  unfold z_resent_field, resent_field.
  apply match_cons; [mapped; apply resent_does, field_date_does|]. apply match_cons; [mapped; apply resent_does, header_does, mailbox_list_does|]. apply match_cons; [mapped; apply resent_does, header_does, mailbox_does|].
  apply match_cons; [mapped; apply resent_does, header_does, address_list_does|]. apply match_cons; [mapped; apply resent_does, header_does, address_list_does|]. apply match_cons; [mapped; apply resent_does, header_does, bcc_does|].
  apply match_cons; [mapped; apply resent_does, header_does, message_id_does|]. apply match_nil.
Qed.
Lemma empty_path_does : does (z_empty_path M) empty_path same.
Proof. intros i Hi. unfold z_empty_path, empty_path. step. step. step. step. step. leaf. reflexivity. Qed.
Lemma return_path_does : does (z_return_path M E) (return_path E) (plain (opt_of like_address)).
Proof.
  apply header_does. apply match_cons; [mapped; apply angle_addr_does|]. apply match_cons; [|apply match_nil]. eapply pmap_does; [apply empty_path_does|]. intros i j [] [] _. split; [exact I|intros _; exact I].
Qed.
Lemma cow_length : forall c v, text_ok c v -> cow_len c = length v.
Proof. intros [p n|s] v [[_ H] _]; cbn in *; [now destruct H|now subst]. Qed.
Lemma token_does : does (z_received_token_parser M E) (received_token_parser E) (plain like_token).
Proof.
  intros i Hi. unfold z_received_token_parser, received_token_parser. eapply attempt_p; [apply word_does|exact Hi| |].
  - intros j a b Hj Ha HR. cbn beta iota. eapply attempt_p; [apply domain_does|exact Hi| |]; [|leaf; exact HR]. intros k c d Hk Hik HR'. cbn beta iota.
    rewrite (cow_length _ _ (proj1 HR)), (cow_length _ _ (proj1 HR')). destruct (_ <? _); [leaf; exact HR'|leaf; exact HR].
  - eapply attempt_p; [apply angle_addr_does|exact Hi| |]. { intros j a b Hj Ha HR. leaf. exact HR. }
    eapply attempt_p; [apply addr_spec_does|exact Hi| |]. { intros j a b Hj Ha HR. leaf. exact HR. }
    eapply attempt_p; [apply domain_does|exact Hi| |reflexivity]. intros j a b Hj Ha HR. leaf. exact HR.
Qed.
Lemma received_does : does (z_received M E) (received E) (plain like_received).
Proof.
  apply header_does. intros i Hi. unfold z_received_value, received_value. eapply bind_p; [apply many_plain, token_does|exact Hi|]. intros j a b Hj Ha HR. cbn beta iota. step. step. unfold same in *. subst. settle; (split; [assumption|reflexivity]).
Qed.
Definition trace_like t d := like_pair (like_option (like_option (like_address t d))) (Forall2 (like_received t d)).
Lemma trace_does : does (z_trace M E) (trace E) (plain trace_like).
Proof.
  intros i Hi. unfold z_trace, trace. eapply bind_p; [apply optional_plain, return_path_does|exact Hi|]. intros j a b Hj Ha HR. cbn beta iota. eapply bind_p; [apply many1_plain, received_does|exact Hj|]. intros k c d Hk Hjk HR'. cbn beta iota. settle; split; assumption.
Qed.
Definition unknown_like (t d : cow -> bytes -> Prop) := like_unknown t fixed_ok.
Lemma unknown_does : does (z_unknown M E) (unknown E) (plain unknown_like).
Proof.
  assert (V : does (if f_unrecognized_headers E then z_mime_unstructured M E else z_unstructured M) (if f_unrecognized_headers E then mime_unstructured E else unstructured) (plain text_like)).
  { destruct (f_unrecognized_headers E) eqn:HU; [|apply unstructured_does]. exact (mime_unstructured_does (ok_unrecognized E HK HU)). }
  intros i Hi. unfold z_unknown, unknown. eapply bind_p; [apply slice1_does|exact Hi|]. intros j a b Hj Ha (F & _ & _). cbn beta iota. step. eapply bind_p; [exact V|eassumption|]. intros k c d Hk Hjk HR'. cbn beta iota. step.
  settle; (split; [exact (full_fixed _ _ _ _ F)|assumption]).
Qed.
(* -- the mime headers -- *)
Lemma token_does' : does (z_token M) token (fun i j c v => fixed_ok c v /\ Post.ascii v).
Proof.
  intros i Hi. unfold z_token, borrowed_slice, pmap, token. pose proof (slice1_does is_token_char i Hi) as S. destruct (sliced M _ i) as [[j s]|e|c], (take_while1 _ i) as [[j' v]|e'|c']; try contradiction; [|exact S..]. destruct S as (Ej & Ha & F & _ & Fv). cbn [fst snd bind] in *. subst j'. leaf. split; [exact (full_fixed _ _ _ _ F)|].
  unfold Post.ascii. eapply Forall_impl; [|exact Fv]. intros x. apply SoundFields.token_char_ascii.
Qed.
Lemma lower_ascii : forall v, Post.ascii v -> Post.ascii (lowercase v).
Proof. intros v H. unfold lowercase, Post.ascii in *. induction H as [|x v Hx H IH]; [constructor|]. constructor; [|exact IH]. unfold to_lower, is_upper. destruct (_ && _) eqn:B; [|exact Hx]. apply andb_prop in B as [_ B]. apply N.leb_le in B. unfold Post.ascii_byte in *. lia. Qed.
Lemma lower_same : forall v, existsb is_upper v = false -> lowercase v = v.
Proof. induction v as [|x v IH]; [reflexivity|]. cbn [existsb]. intros H. apply orb_false_iff in H as [H1 H2]. change (lowercase (x :: v)) with (to_lower x :: lowercase v). rewrite (IH H2). unfold to_lower. now rewrite H1. Qed.
Lemma lowercase_does : forall c v, text_ok c v -> Post.ascii v -> exists s, z_lowercase M c = Ok s /\ text_ok s (lowercase v).
Proof.
  intros c v T A. unfold z_lowercase. rewrite (text_contents _ _ _ (proj1 T)). cbn [bind]. destruct (existsb is_upper v) eqn:X.
  - exists (Owned (lowercase v)). split; [reflexivity|]. apply owned_ok, Post.ascii_utf8, lower_ascii, A.
  - exists c. split; [reflexivity|]. now rewrite (lower_same v X).
Qed.
Definition param_like (x : z_param) (y : param) : Prop :=
  let '(c, ix, en, d) := x in let '(n, ix', en', v) := y in text_ok c n /\ ix = ix' /\ en = en' /\ text_ok d v.
Definition name_like (i j : bytes) (x : cow * option N * bool) (y : bytes * option N * bool) : Prop :=
  let '(c, ix, en) := x in let '(n, ix', en') := y in text_ok c n /\ Post.ascii n /\ ix = ix' /\ en = en'.
Lemma indexed_name_does : does (z_indexed_name M) indexed_name name_like.
Proof.
  intros i Hi. unfold z_indexed_name. pose proof (SoundFields.sound_indexed_name (fun _ => True) i) as S. destruct (indexed_name i) as [[r [[n ix] en]]|e|c] eqn:X; [|reflexivity..]. cbn [bind rel].
  destruct S as (w & Ew & _). split; [reflexivity|]. split; [cbn; rewrite Ew; now exists w|]. cbn [fst snd].
  unfold indexed_name in X. pose proof (slice1_does (fun c => is_token_char c && negb (c =? 42)%N) i Hi) as T. unfold sliced in T. destruct (take_while1 _ i) as [[k n']|e|c]; try discriminate.
  assert (n' = n). { cbn [bind] in X. destruct (optional _ k) as [[k2 o]|e|c]; try discriminate. cbn [bind] in X. destruct (match o with Some _ => _ | None => _ end) as [o'|e|c]; try discriminate. cbn [bind] in X. destruct (match k2 with [] => _ | _ => _ end) as [[k3 e']|e|c]; try discriminate. cbn [bind] in X. destruct k3 as [|x k3]; [discriminate|]. destruct (x =? 61)%N; [|discriminate]. congruence. }
  subst n'. cbn in T. destruct T as (_ & _ & (F & Es & Fv)). split; [apply F|]. split; [|now split]. unfold Post.ascii. eapply Forall_impl; [|exact Fv]. intros x Hx. apply andb_prop in Hx as [Hx _]. now apply SoundFields.token_char_ascii.
Qed.
Lemma value_does : does (match_parsers [z_token M; z_quoted_string M]) (match_parsers [token; quoted_string]) (plain text_like).
Proof. apply match_cons; [|apply match_cons; [apply quoted_string_does|apply match_nil]]. eapply weaken; [apply token_does'|]. intros i j c v _ _ [F _]. exact (fixed_plain _ _ _ _ F). Qed.
Lemma parameter_does : does (z_parameter M) parameter (fun i j => param_like).
Proof.
  intros i Hi. unfold z_parameter, parameter. step. step. step.
  eapply bind_p; [apply match_cons; [apply indexed_name_does|]; apply match_cons; [|apply match_nil]; eapply pmap_does; [apply token_does'|]|eassumption|].
  { intros i' j' c v [[T _] A]. cbn. now split. }
  intros k [[c ix] en] [[n ix'] en'] Hk Hjk (T & A & <- & <-). cbn beta iota. destruct (lowercase_does c n T A) as (s & Hs & Ts). apply rel_then. exists s. split; [exact Hs|]. step. eapply bind_p; [apply value_does|eassumption|].
  intros k2 d v Hk2 Hjk2 [T2 _]. leaf. now split.
Qed.
Definition segment_like (x : N * (bool * cow)) (y : N * (bool * bytes)) : Prop := fst x = fst y /\ fst (snd x) = fst (snd y) /\ text_ok (snd (snd x)) (snd (snd y)).
Lemma insert_does : forall V W (R : V -> W -> Prop) l l' k c v w, like_map text_ok R l l' -> text_ok c k -> R v w -> like_map text_ok R (z_insert l k c v) (map_insert l' k w).
Proof.
  intros V W R l l' k c v w H Hc HR. induction H as [|[k1 [c1 v1]] [k2 w2] l l' (E1 & E2 & E3) H IH]; cbn [z_insert map_insert]; [constructor; [now split|constructor]|]. cbn in E1, E2, E3. subst k2.
  destruct (bytes_eqb k k1); constructor; auto; now split.
Qed.
Lemma get_does : forall V W (R : V -> W -> Prop) l l' k, like_map text_ok R l l' -> like_option (fun x y => R (snd x) y) (map_get l k) (map_get l' k).
Proof.
  intros V W R l l' k H. induction H as [|[k1 [c1 v1]] [k2 w2] l l' (E1 & E2 & E3) H IH]; cbn [map_get]; [exact I|]. cbn in E1, E2, E3. subst k2. destruct (bytes_eqb k k1); [exact E3|exact IH].
Qed.
Lemma imap_insert_does : forall l l' k x y, Forall2 segment_like l l' -> fst x = fst y -> text_ok (snd x) (snd y) -> Forall2 segment_like (z_imap_insert l k x) (imap_insert l' k y).
Proof.
  intros l l' k x y H H1 H2. induction H as [|[k1 v1] [k2 v2] l l' (E1 & E2) H IH]; cbn [z_imap_insert imap_insert]; [constructor; [now split|constructor]|]. cbn in E1, E2. subst k2. destruct (k =? k1)%N; constructor; auto; now split.
Qed.
Lemma imap_remove_does : forall l l' k, Forall2 segment_like l l' -> like_option (like_pair (like_pair eq text_ok) (Forall2 segment_like)) (z_imap_remove l k) (imap_remove l' k).
Proof.
  intros l l' k H. induction H as [|[k1 v1] [k2 v2] l l' (E1 & E2 & E3) H IH]; cbn [z_imap_remove imap_remove]; [exact I|]. cbn in E1, E2, E3. subst k2. destruct (k =? k1)%N; [split; [now split|exact H]|].
  destruct (z_imap_remove l k) as [[a r]|], (imap_remove l' k) as [[b r']|]; try contradiction; [|exact I]. destruct IH as [I1 I2]. split; [exact I1|]. constructor; [|exact I2]. now split.
Qed.
Definition tables_like (x : z_map cow * z_map (list (N * (bool * cow)))) (y : list (bytes * bytes) * list (bytes * list (N * (bool * bytes)))) : Prop :=
  like_map text_ok text_ok (fst x) (fst y) /\ like_map text_ok (Forall2 segment_like) (snd x) (snd y).
Lemma split_does : forall l l', Forall2 param_like l l' -> forall p p' c c', tables_like (p, c) (p', c') -> exists r, z_split_parameters M l p c = Ok r /\ tables_like r (split_parameters l' p' c').
Proof.
  intros l l' H. induction H as [|[[[n ix] en] v] [[[n' ix'] en'] v'] l l' (T & -> & -> & T2) H IH]; intros p p' c c' [H1 H2]; cbn [fst snd] in H1, H2; cbn [z_split_parameters split_parameters]; [eexists; split; [reflexivity|now split]|].
  rewrite (text_contents _ _ _ (proj1 T)). cbn [bind]. destruct ix' as [ix|]; apply IH; split; cbn [fst snd]; auto; [|now apply insert_does].
  apply insert_does; [exact H2|exact T|]. apply imap_insert_does; [|reflexivity|exact T2]. pose proof (get_does _ _ _ _ _ n' H2) as G. destruct (map_get c n') as [[k x]|], (map_get c' n'); try contradiction; [exact G|constructor].
Qed.
Lemma decode_utf8 : forall v cs d, decode_parameter E v cs = Ok d -> utf8_valid d = true.
Proof.
  intros v cs d. unfold decode_parameter. destruct (find_charset cs) as [k|].
  - destruct (decode_percents E v _) as [u|e|c]; try discriminate. cbn [bind]. destruct k; cbn [decode_charset]; [unfold str_checked; destruct (utf8_valid u) eqn:U; [|discriminate]; congruence|]. intros [= <-]. apply (ok_textcode E HK).
  - unfold str_unchecked. destruct (utf8_valid v) eqn:U; [|discriminate]. congruence.
Qed.
Lemma first_does : forall en c v, text_ok c v -> rel (like_pair text_ok eq) (z_first_segment M E en c) (first_segment E en v).
Proof.
  intros [] c v T; unfold z_first_segment; [|now split]. rewrite (text_contents _ _ _ (proj1 T)). cbn [bind]. destruct (first_segment E true v) as [[d cs]|e|k] eqn:X; [|reflexivity..]. cbn. split; [|reflexivity]. cbn. apply owned_ok.
  unfold first_segment in X. destruct (take_while _ v) as [[v1 c1]|e|k]; try discriminate. cbn [bind] in X. destruct (tag _ _ v1) as [[v2 []]|e|k]; try discriminate. cbn [bind] in X. destruct (take_while _ v2) as [[v3 c3]|e|k]; try discriminate. cbn [bind] in X.
  destruct (tag _ _ v3) as [[v4 []]|e|k]; try discriminate. cbn [bind] in X. destruct (decode_parameter E v4 _) as [d'|e|k] eqn:Y; try discriminate. cbn [bind] in X. injection X as <- _. exact (decode_utf8 _ _ _ Y).
Qed.
Lemma next_does : forall n l l' cs idx c v, Forall2 segment_like l l' -> text_ok c v -> rel text_ok (z_next_segments M E n l cs idx c) (next_segments E n l' cs idx v).
Proof.
  induction n as [|n IH]; intros l l' cs idx c v H T; cbn [z_next_segments next_segments]; [reflexivity|]. pose proof (imap_remove_does _ _ idx H) as G. destruct (z_imap_remove l idx) as [[[en d] r]|], (imap_remove l' idx) as [[[en' w] r']|]; try contradiction; [|exact T].
  destruct G as [[G1 G2] G3]. cbn [fst snd] in *. subst en'.
  eapply (rel_bind _ _ _ _ text_ok).
  - assert (P : rel text_ok (add_string m c d) (Ok (v ++ w))). { destruct (add_text _ _ _ _ T G2) as (s & -> & Ts). exact Ts. }
    destruct en, cs as [cs|]; try exact P. rewrite (text_contents _ _ _ (proj1 G2)). cbn [bind]. destruct (decode_parameter E w cs) as [x|e|k] eqn:X; [|reflexivity..]. cbn [bind]. destruct (add_text _ _ _ _ T (owned_ok x (decode_utf8 _ _ _ X))) as (s & -> & Ts). exact Ts.
  - intros c2 v2 T2. destruct (u8_add E idx 1) as [i2|e|k]; [|reflexivity..]. cbn [bind]. now apply IH.
Qed.
Lemma segments_does : forall l l', Forall2 segment_like l l' -> rel (like_option text_ok) (z_join_segments M E l) (join_segments E l').
Proof.
  intros l l' H. unfold z_join_segments, join_segments. pose proof (imap_remove_does _ _ 0%N H) as G. destruct (z_imap_remove l 0) as [[[en d] r]|], (imap_remove l' 0) as [[[en' w] r']|]; try contradiction; [|exact I].
  destruct G as [[G1 G2] G3]. cbn [fst snd] in *. subst en'. eapply rel_bind; [exact (first_does en d w G2)|]. intros [c cs] [v cs'] [T Q]. cbn [fst snd] in *. subst cs'. assert (LL : length r = length r') by (clear -G3; induction G3; cbn; congruence). rewrite LL. eapply rel_bind; [exact (next_does _ _ _ cs 1%N _ _ G3 T)|]. intros x y T2. exact T2.
Qed.
Lemma join_all_does : forall names c c' p p', tables_like (p, c) (p', c') -> Forall (fun n => map_get c' n <> None -> utf8_valid n = true) names -> rel (like_map text_ok text_ok) (z_join_all M E names c p) (join_all E names c' p').
Proof.
  induction names as [|n names IH]; intros c c' p p' [H1 H2] U; cbn [fst snd] in H1, H2; cbn [z_join_all join_all]; [exact H1|]. inversion U as [|? ? U1 U2]; subst. pose proof (get_does _ _ _ _ _ n H2) as G. destruct (map_get c n) as [[k x]|], (map_get c' n) as [y|]; try contradiction; [|apply IH; [now split|exact U2]].
  cbn in G. eapply rel_bind; [exact (segments_does _ _ G)|]. intros a b HR. apply IH; [|exact U2]. split; [|exact H2]. cbn [fst]. destruct a, b; try contradiction; [|exact H1]. apply insert_does; [exact H1|apply owned_ok, U1; discriminate|exact HR].
Qed.
Lemma map_keys : forall V W (R : V -> W -> Prop) l l', like_map text_ok R l l' -> map fst l = map fst l' /\ forall n, map_get l' n <> None -> utf8_valid n = true.
Proof.
  intros V W R l l' H. induction H as [|[k1 [c1 v1]] [k2 w2] l l' (E1 & E2 & E3) H [I1 I2]]; [split; [reflexivity|easy]|]. cbn in E1, E2, E3. subst k2. cbn. split; [now rewrite I1|]. intros n. destruct (bytes_eqb n k1) eqn:B; [|apply I2]. apply PercentProofs.bytes_eqb_eq in B. subst n. intros _. apply E2.
Qed.
Lemma collect_parameters_does : forall l l', Forall2 param_like l l' -> rel (like_map text_ok text_ok) (z_collect_parameters M E l) (collect_parameters E l').
Proof.
  intros l l' H. unfold z_collect_parameters, collect_parameters. destruct (split_does _ _ H [] [] [] []) as ([p c] & -> & S); [split; constructor|]. destruct (split_parameters l' [] []) as [p' c']. cbn [bind]. destruct S as [S1 S2]. cbn [fst snd] in *. destruct (map_keys _ _ _ _ _ S2) as [K1 K2].
  rewrite K1. apply join_all_does; [now split|]. apply Forall_forall. intros n _. apply K2.
Qed.
Lemma chain_forall : forall A B (R : A -> B -> Prop) i j l l', chain (fun i j => R) i j l l' -> Forall2 R l l'.
Proof. intros A B R i j l l' H. induction H; constructor; auto. Qed.
Lemma lowered_does : forall A B (f : cow -> A) (g : bytes -> B) (R : A -> B -> Prop), (forall c v, text_ok c v -> R (f c) (g v)) -> does (pmap f (z_lower_token M)) (pmap (fun t => g (lowercase t)) token) (fun i j => R).
Proof.
  intros A B f g R H i Hi. unfold pmap, z_lower_token. pose proof (token_does' i Hi) as T. destruct (z_token M i) as [[j c]|e|k], (token i) as [[j' v]|e'|k']; try contradiction; [|exact T..]. destruct T as (Ej & Ha & [T _] & A'). cbn [fst snd bind] in *. subst j'.
  destruct (lowercase_does c v T A') as (s & -> & Ts). cbn [bind]. leaf. auto.
Qed.
Lemma known_does : forall A B (a : A) (b : B) (R : A -> B -> Prop) e1 e2 msg, R a b -> does (pmap (fun _ : unit => a) (tag_no_case E e1 e2 msg)) (pmap (fun _ : unit => b) (tag_no_case E e1 e2 msg)) (fun i j => R).
Proof. intros A B a b R e1 e2 msg H. eapply pmap_does; [apply tag_no_case_does|]. auto. Qed.
Lemma mime_type_does : does (z_mime_type M E) (mime_type E) (fun i j => like_type text_ok).
Proof.
  unfold z_mime_type, mime_type. do 7 (apply match_cons; [apply known_does; reflexivity|]). apply match_cons; [|apply match_nil]. apply lowered_does. intros c v T. exact T.
Qed.
Lemma inline_does : does ignore_inline_cfws ignore_inline_cfws same.
Proof. intros i Hi. apply rel_same. intros [j []] H. pose proof (SoundFields.sound_inline_cfws (fun _ => True) i) as S. rewrite H in S. destruct S as (w & -> & _). split; [reflexivity|]. split; [now exists w|reflexivity]. Qed.
Hint Resolve inline_does : zc.
Definition content_type_like (x : z_content_type_t * cow * z_map cow) (y : content_type_t * bytes * list (bytes * bytes)) : Prop :=
  let '(a, b, c) := x in let '(a', b', c') := y in like_type text_ok a a' /\ text_ok b b' /\ like_map text_ok text_ok c c'.
Lemma content_type_does : does (z_content_type M E) (content_type E) (fun i j => content_type_like).
Proof.
  intros i Hi. unfold z_content_type, content_type. step. step. eapply bind_p; [apply mime_type_does|eassumption|]. intros k t t' Hk Hjk Ht. cbn beta iota. step.
  pose proof (lowered_does _ _ (fun c => c) (fun v => v) text_ok (fun c v T => T) _ Hj1) as T. unfold pmap in T. destruct (z_lower_token M j1) as [[k2 c]|e|x], (token j1) as [[k2' v]|e'|x']; try contradiction; [|exact T..]. cbn [bind rel] in T. destruct T as (Ek & Ha2 & T). cbn [fst snd bind] in *. subst k2'. cbn [bind].
  assert (Hk2 : tail k2) by exact (tail_after _ _ Hj1 Ha2). eapply bind_p; [apply many_does, parameter_does|exact Hk2|]. intros k3 l l' Hk3 Hjk3 HC. cbn beta iota. apply chain_forall in HC. eapply rel_bind; [exact (collect_parameters_does _ _ HC)|]. intros ps ps' Hps. step. step. leaf. now split.
Qed.
Lemma filename_does : does (z_filename_parameter M E) (filename_parameter E) (plain text_like).
Proof.
  intros i Hi. unfold z_filename_parameter, filename_parameter. step. step. step. step. step. eapply rel_weaken; [|exact (value_does _ Hj3)]. intros [k c] [k' v] (Ek & Hk & W). split; [exact Ek|]. split; [after_chain|exact W].
Qed.
Lemma date_parameter_does : forall n u, does (z_date_parameter M E n u) (date_parameter E n u) same.
Proof. intros n u i Hi. unfold z_date_parameter, date_parameter. step. step. step. step. step. step. step. leaf. assumption. Qed.
Definition item_like (t d : cow -> bytes -> Prop) (x : z_disposition_item) (y : disposition_item) : Prop :=
  match x, y with
  | ZDFilename a, DFilename b => t a b
  | ZDCreation a, DCreation b | ZDModification a, DModification b | ZDRead a, DRead b => a = b
  | ZDParam a, DParam b => param_like a b
  | _, _ => False
  end.
Lemma item_does : does (z_disposition_item_parser M E) (disposition_item_parser E) (plain item_like).
Proof.
  unfold z_disposition_item_parser, disposition_item_parser.
  apply match_cons; [eapply pmap_does; [apply filename_does|]; intros i j a b X; exact X|].
  do 3 (apply match_cons; [eapply pmap_does; [apply date_parameter_does|]; intros i j a b X; split; [exact X|intros _; exact X]|]).
  apply match_cons; [|apply match_nil]. eapply pmap_does; [apply parameter_does|]. intros i j a b X. split; [exact X|intros _; exact X].
Qed.
Lemma disposition_kind_does : does (z_disposition_kind M E) (disposition_kind E) (fun i j => like_disposition_type text_ok).
Proof. unfold z_disposition_kind, disposition_kind. do 2 (apply match_cons; [apply known_does; exact I|]). apply match_cons; [|apply match_nil]. apply lowered_does. intros c v T. exact T. Qed.
Lemma item_params_does : forall t d l l', Forall2 (item_like t d) l l' -> Forall2 param_like (z_item_params l) (item_params l').
Proof. intros t d l l' H. induction H as [|[] [] l l' H1 H IH]; try contradiction; cbn; [constructor|exact IH..|]. constructor; [exact H1|exact IH]. Qed.
Definition disposition_like (t d : cow -> bytes -> Prop) := like_disposition t text_ok.
Lemma set_items_does : forall t d l l', Forall2 (item_like t d) l l' -> forall a b, disposition_like t d a b -> disposition_like t d (fold_left z_set_item l a) (fold_left set_item l' b).
Proof.
  intros t d l l' H. induction H as [|x y l l' H1 H IH]; intros a b HR; [exact HR|]. cbn [fold_left]. apply IH. destruct HR, x, y; try contradiction; constructor; cbn; try assumption; try exact H1; now rewrite H1.
Qed.
Lemma content_disposition_does : does (z_content_disposition M E) (content_disposition E) (plain disposition_like).
Proof.
  intros i Hi. unfold z_content_disposition, content_disposition. step. step. eapply bind_p; [apply disposition_kind_does|eassumption|]. intros k t t' Hk Hjk Ht. cbn beta iota. eapply bind_p; [apply many_plain, item_does|exact Hk|]. intros k2 l l' Hk2 Hjk2 HI. cbn beta iota.
  eapply rel_bind; [exact (collect_parameters_does _ _ (item_params_does _ _ _ _ (proj1 HI)))|]. intros ps ps' Hps. step. step. settle; (eapply set_items_does; [eassumption|]); constructor; cbn; try reflexivity; assumption.
Qed.
Lemma content_id_does : does (z_content_id M E) (content_id E) (plain id_like).
Proof. intros i Hi. unfold z_content_id, content_id. step. step. step. settle; assumption. Qed.
Lemma content_description_does : f_mime E = true -> does (z_content_description M E) (content_description E) (plain text_like).
Proof. intros HM i Hi. unfold z_content_description, content_description. step. eapply bind_p; [apply (mime_unstructured_does HM)|eassumption|]. intros k c v Hk Hjk HR'. cbn beta iota. step. settle; assumption. Qed.
Lemma same_does : forall A (p : parser A), (forall i, exists P, Post.post (fun _ => True) (p i) i P) -> does p p same.
Proof. intros A p H i Hi. apply rel_same. intros [j a] X. destruct (H i) as [P S]. rewrite X in S. destruct S as (w & -> & _). split; [reflexivity|]. split; [now exists w|reflexivity]. Qed.
Lemma mime_version_does : does (mime_version E) (mime_version E) same.
Proof. apply same_does. intros i. eexists. apply SoundFields.sound_mime_version. Qed.
Lemma encoding_does : does (content_transfer_encoding E) (content_transfer_encoding E) same.
Proof. apply same_does. intros i. eexists. apply SoundFields.sound_encoding. Qed.
Definition field_like (t d : cow -> bytes -> Prop) (a : z_field) (b : field) : Prop :=
  match a, b with
  | ZDate a, FDate b => a = b
  | ZFrom a, FFrom b => Forall2 (like_mailbox t d) a b
  | ZSender a, FSender b => like_mailbox t d a b
  | ZReplyTo a, FReplyTo b | ZTo a, FTo b | ZCc a, FCc b | ZBcc a, FBcc b => Forall2 (like_entry t d) a b
  | ZMessageId a, FMessageId b => like_id fixed_ok a b
  | ZInReplyTo a, FInReplyTo b | ZReferences a, FReferences b => Forall2 (like_id fixed_ok) a b
  | ZSubject a, FSubject b | ZComments a, FComments b => t a b
  | ZKeywords a, FKeywords b => Forall2 (Forall2 t) a b
  | ZMimeVersion a b, FMimeVersion a' b' => (a, b) = (a', b')
  | ZContentType a b c, FContentType a' b' c' => content_type_like (a, b, c) (a', b', c')
  | ZContentTransferEncoding a, FContentTransferEncoding b => a = b
  | ZContentId a, FContentId b => like_id fixed_ok a b
  | ZContentDescription a, FContentDescription b => t a b
  | ZContentDisposition a, FContentDisposition b => disposition_like t d a b
  | ZTrace rp rc l, FTrace rp' rc' l' => like_trace t d fixed_ok (rp, rc, l) (rp', rc', l')
  | ZUnknown n v, FUnknown n' v' => like_unknown t fixed_ok (n, v) (n', v')
  | _, _ => False
  end.
Lemma trace_block_does : does (z_trace_block M E) (trace_block E) (plain field_like).
Proof.
  intros i Hi. unfold z_trace_block, trace_block. eapply bind_p; [apply trace_does|exact Hi|]. intros j [rp rc] [rp' rc'] Hj Ha HR. cbn beta iota. eapply bind_p; [apply many_plain, resent_field_does|exact Hj|]. intros k c d Hk Hjk HR'. cbn beta iota. settle; split; assumption.
Qed.
Lemma cfg_does : forall A B b (p : parser A) (q : parser B) ps qs R, does p q R -> does (match_parsers ps) (match_parsers qs) R -> does (match_parsers (cfg b p ++ ps)) (match_parsers (cfg b q ++ qs)) R.
Proof. intros A B [] p q ps qs R H Hs; [exact (match_cons _ _ _ _ _ _ _ H Hs)|exact Hs]. Qed.
Lemma cfg_on : forall A B b (p : parser A) (q : parser B) ps qs R, (b = true -> does p q R) -> does (match_parsers ps) (match_parsers qs) R -> does (match_parsers (cfg b p ++ ps)) (match_parsers (cfg b q ++ qs)) R.
Proof. intros A B [] p q ps qs R H Hs; [exact (match_cons _ _ _ _ _ _ _ (H eq_refl) Hs)|exact Hs]. Qed.
Lemma any_field_does : does (z_any_field M E) (any_field E) (plain field_like).
Proof.
  unfold z_any_field, any_field, z_field_parsers, field_parsers.
  apply cfg_does; [mapped; apply field_date_does|]. apply cfg_does; [mapped; apply header_does, mailbox_list_does|]. apply cfg_does; [mapped; apply header_does, mailbox_does|].
  do 3 (apply cfg_does; [mapped; apply header_does, address_list_does|]). apply cfg_does; [mapped; apply header_does, bcc_does|]. apply cfg_does; [mapped; apply header_does, message_id_does|].
  do 2 (apply cfg_does; [mapped; apply header_does, many1_plain, message_id_does|]). do 2 (apply cfg_does; [mapped; apply header_does, text_value_does|]).
  apply cfg_does; [eapply pmap_does; [apply mime_version_does|]; intros i j [a a'] [b b'] X; split; [exact X|intros _; exact X]|].
  apply cfg_does; [eapply pmap_does; [apply content_type_does|]; intros i j [[a a'] a''] [[b b'] b''] X; split; [exact X|intros _; exact X]|].
  apply cfg_does; [eapply pmap_does; [apply encoding_does|]; intros i j a b X; split; [exact X|intros _; exact X]|].
  apply cfg_does; [mapped; apply content_id_does|]. apply cfg_on; [intros HM; mapped; exact (content_description_does HM)|]. apply cfg_does; [mapped; apply content_disposition_does|].
  apply cfg_does; [mapped; apply header_does, keywords_does|]. apply match_cons; [|apply match_nil]. eapply pmap_plain; [apply unknown_does|]. intros t d [a a'] [b b'] X. exact X.
Qed.
Lemma fields_does : does (z_fields M E) (fields E) (plain (list_of field_like)).
Proof.
  intros i Hi. unfold z_fields, fields.
  assert (F : does (fun i => if f_trace E then many (z_trace_block M E) i else Ok (i, [])) (fun i => if f_trace E then many (trace_block E) i else Ok (i, [])) (plain (list_of field_like))).
  { intros k Hk. destruct (f_trace E); [exact (many_plain _ _ _ _ _ trace_block_does k Hk)|]. leaf. split; [constructor|intros _; constructor]. }
  eapply (bind_p _ _ _ _ _ _ _ _ i _ _ F Hi). intros j a b Hj Ha HR. cbn beta iota. eapply bind_p; [apply many_plain, any_field_does|exact Hj|]. intros k c d Hk Hjk HR'. cbn beta iota. settle; apply Forall2_app; assumption.
Qed.
Lemma body_does : forall i, tail i -> rel (like_option fixed_ok) (z_body M i) (Message.body i).
Proof.
  intros i Hi. unfold z_body, Message.body. destruct i as [|c i]; [exact I|]. eapply bind_p; [apply tag_does|exact Hi|]. intros j [] [] Hj Ha Ej. cbn beta iota. destruct (body_loop _ j); try reflexivity. cbn [bind].
  assert (EU : unchecked_from (c :: i) 2 = Ok j). { rewrite Ej. unfold unchecked_from. cbn. reflexivity. } rewrite EU. cbn [bind]. unfold from_slice.
  assert (Hj' : tail (j ++ [])) by now rewrite app_nil_r. pose proof (at_here j [] Hj') as AT. pose proof (full_slice j [] Hj') as F. rewrite app_nil_r in AT, F.
  rewrite (read_at m j _ AT). cbn [bind]. unfold str_unchecked. destruct (utf8_valid j); [|reflexivity]. cbn. exact (full_fixed _ _ _ _ (F eq_refl)).
Qed.
(* the bytes v, as a slice of the mail or a copy *)
Definition raw_ok (c : cow) (v : bytes) : Prop := is_bytes m c v /\ slice_in (base M) (base M + N.of_nat (length D)) c.
Lemma mime_body_does : forall i, tail i -> rel (like_option raw_ok) (z_mime_body M i) (mime_body i).
Proof.
  intros i Hi. unfold z_mime_body, mime_body. destruct i as [|c i]; [exact I|]. eapply bind_p; [apply tag_does|exact Hi|]. intros j [] [] Hj Ha Ej. cbn.
  assert (Hj' : tail (j ++ [])) by now rewrite app_nil_r. pose proof (at_here j [] Hj') as AT. rewrite app_nil_r in AT. split; [split; [reflexivity|exact AT]|]. cbn. right. unfold here. apply after_len in Hj. lia.
Qed.
Lemma bytes_contents : forall c v, is_bytes m c v -> contents m c = Ok v.
Proof. intros [p n|s] v H; cbn in *; [|now rewrite H]. destruct H as [<- H]. now apply read_at. Qed.
Lemma decode_value_does : forall c v enc, raw_ok c v -> rel raw_ok (z_decode_value M E c enc) (decode_value E v enc).
Proof.
  intros c v enc H. destruct enc; cbn [z_decode_value decode_value]; try exact H; try reflexivity; rewrite (bytes_contents _ _ (proj1 H)); cbn [bind].
  - destruct (decode_qp E v); try reflexivity. cbn. now split.
  - destruct (decode_base64 E v); try reflexivity. cbn. now split.
Qed.

(* -- the email -- *)
Record acc_like (t d : cow -> bytes -> Prop) (a : z_acc) (b : acc) : Prop := {
  al_from : like_option (Forall2 (like_mailbox t d)) (zv_from a) (v_from b);
  al_sender : like_option (like_mailbox t d) (zv_sender a) (v_sender b);
  al_subject : like_option t (zv_subject a) (v_subject b);
  al_date : zv_date a = v_date b;
  al_to : like_option (Forall2 (like_entry t d)) (zv_to a) (v_to b);
  al_cc : like_option (Forall2 (like_entry t d)) (zv_cc a) (v_cc b);
  al_bcc : like_option (Forall2 (like_entry t d)) (zv_bcc a) (v_bcc b);
  al_message_id : like_option (like_id fixed_ok) (zv_message_id a) (v_message_id b);
  al_in_reply_to : like_option (Forall2 (like_id fixed_ok)) (zv_in_reply_to a) (v_in_reply_to b);
  al_references : like_option (Forall2 (like_id fixed_ok)) (zv_references a) (v_references b);
  al_reply_to : like_option (Forall2 (like_entry t d)) (zv_reply_to a) (v_reply_to b);
  al_comments : Forall2 t (zv_comments a) (v_comments b);
  al_keywords : Forall2 (Forall2 t) (zv_keywords a) (v_keywords b);
  al_trace : Forall2 (like_trace t d fixed_ok) (zv_trace a) (v_trace b);
  al_mime_version : zv_mime_version a = v_mime_version b;
  al_content_type : like_option content_type_like (zv_content_type a) (v_content_type b);
  al_cte : zv_cte a = v_cte b;
  al_content_id : like_option (like_id fixed_ok) (zv_content_id a) (v_content_id b);
  al_content_description : like_option t (zv_content_description a) (v_content_description b);
  al_content_disposition : like_option (disposition_like t d) (zv_content_disposition a) (v_content_disposition b);
  al_unknown : Forall2 (like_unknown t fixed_ok) (zv_unknown a) (v_unknown b)
}.
Lemma set_once_does : forall A B (R : A -> B -> Prop) o o' a b n, like_option R o o' -> R a b -> rel (like_option R) (set_once o a n) (set_once o' b n).
Proof. intros A B R [x|] [y|] a b n H HR; try easy. Qed.
Lemma set_field_does : forall t d a b f g, acc_like t d a b -> field_like t d f g -> rel (acc_like t d) (z_set_field a f) (set_field b g).
Proof.
  intros t d a b f g HA' HF.
  destruct f, g; try contradiction; cbn [field_like] in HF; cbn [z_set_field set_field];
  try (eapply rel_bind; [eapply set_once_does; [apply HA'|exact HF]|]; intros x y Hxy; destruct HA'; constructor; assumption);
  try (destruct HA'; constructor; cbn; try assumption; apply Forall2_app; [assumption|first [exact HF|constructor; [exact HF|constructor]]]).
  all: eapply rel_bind; [eapply (set_once_does _ _ eq); [|exact HF]|]; [first [rewrite (al_date _ _ _ _ HA')|rewrite (al_mime_version _ _ _ _ HA')|rewrite (al_cte _ _ _ _ HA')]; match goal with |- like_option eq ?x ?x => now destruct x end|]; intros x y Hxy; destruct HA'; constructor; try assumption; cbn; destruct x, y; cbn in Hxy; [now rewrite Hxy|contradiction..|reflexivity].
Qed.
Lemma set_fields_does : forall t d fs gs a b, Forall2 (field_like t d) fs gs -> acc_like t d a b -> rel (acc_like t d) (z_set_fields a fs) (set_fields b gs).
Proof.
  intros t d fs gs a b H. revert a b. induction H as [|f g fs gs Hf H IH]; intros a b HA'; cbn [z_set_fields set_fields]; [exact HA'|]. eapply rel_bind; [exact (set_field_does _ _ _ _ _ _ HA' Hf)|]. intros x y Hxy. auto.
Qed.
Variable lits : literals.
Hypothesis HL : loaded m lits.
Definition loose_ok (c : cow) (v : bytes) : Prop := StringSpec.is_text m c v /\ (slice_in (base M) (base M + N.of_nat (length D)) c \/ is_literal lits c).
Lemma text_loose : forall c v, text_ok c v -> loose_ok c v.
Proof. intros c v [T S]. split; [exact T|now left]. Qed.
Lemma type_loose : forall a b, like_type text_ok a b -> like_type loose_ok a b.
Proof. intros [x|x] [] H; try exact H; exact (text_loose _ _ H). Qed.
Lemma map_loose : forall a b, like_map text_ok text_ok a b -> like_map loose_ok loose_ok a b.
Proof. intros a b H. induction H as [|x y a b (H1 & H2 & H3) H IH]; constructor; auto. split; [exact H1|]. split; now apply text_loose. Qed.
Lemma disposition_loose : forall t d a b, disposition_like t d a b -> like_disposition t loose_ok a b.
Proof. intros t d a b []. constructor; try assumption; [|now apply map_loose]. destruct (z_disposition_type a), (disposition_type b); try assumption. exact (text_loose _ _ ld_type). Qed.
Lemma option_loose : forall A B (R R' : A -> B -> Prop) x y, (forall a b, R a b -> R' a b) -> like_option R x y -> like_option R' x y.
Proof. intros A B R R' [a|] [b|] H HR; try contradiction; [exact (H _ _ HR)|exact I]. Qed.
Definition loose_type_like (x : z_content_type_t * cow * z_map cow) (y : content_type_t * bytes * list (bytes * bytes)) : Prop :=
  let '(a, b, c) := x in let '(a', b', c') := y in like_type loose_ok a a' /\ loose_ok b b' /\ like_map loose_ok loose_ok c c'.
Lemma default_loose : loose_type_like (z_default_content_type lits) default_content_type.
Proof.
  destruct HL as (H1 & H2 & H3). split; [reflexivity|]. split; [|constructor; [|constructor]]; [|split; [reflexivity|]; split]; (split; [split; [reflexivity|]; split; [reflexivity|assumption]|right]); unfold is_literal; auto.
Qed.
Lemma finish_does : forall t d a b x y, acc_like t d a b -> (if f_mime E then like_option raw_ok x y else like_option fixed_ok x y) -> rel (like_email t d fixed_ok loose_ok raw_ok) (z_finish M lits E a x) (finish E b y).
Proof.
  intros t d a b x y HA' HB. unfold z_finish, finish.
  eapply (rel_bind _ _ _ _ (Forall2 (like_mailbox t d))). { destruct (f_from E); [|constructor]. pose proof (al_from _ _ _ _ HA') as X. destruct (zv_from a), (v_from b); try contradiction; [exact X|reflexivity]. }
  intros fr fr' Hfr. eapply (rel_bind _ _ _ _ eq). { destruct (f_date E); [|reflexivity]. rewrite (al_date _ _ _ _ HA'). now destruct (v_date b). }
  intros da da' <-. eapply (rel_bind _ _ _ _ (like_option (like_mailbox t d))).
  { destruct (f_sender E); [|exact I]. pose proof (al_sender _ _ _ _ HA') as X. destruct (zv_sender a), (v_sender b); try contradiction; [exact X|]. inversion Hfr as [|u v l l' Hu Hl]; subst; [reflexivity|]. inversion Hl; subst; [exact Hu|reflexivity]. }
  intros se se' Hse. eapply (rel_bind _ _ _ _ (like_option (like_entity t fixed_ok loose_ok raw_ok))).
  { destruct (f_mime E); [|exact I].
    assert (C : loose_type_like (match zv_content_type a with Some x => x | None => z_default_content_type lits end) (match v_content_type b with Some x => x | None => default_content_type end)).
    { pose proof (al_content_type _ _ _ _ HA') as X. destruct (zv_content_type a) as [[[p q] r]|], (v_content_type b) as [[[p' q'] r']|]; try contradiction; [|exact default_loose]. destruct X as (X1 & X2 & X3). split; [now apply type_loose|]. split; [now apply text_loose|now apply map_loose]. }
    destruct (match zv_content_type a with Some x => x | None => z_default_content_type lits end) as [[p q] r], (match v_content_type b with Some x => x | None => default_content_type end) as [[p' q'] r']. destruct C as (C1 & C2 & C3).
    eapply (rel_bind _ _ _ _ (like_option raw_ok)).
    { destruct x as [c|], y as [v|]; try contradiction; [|exact I]. rewrite (al_cte _ _ _ _ HA'). eapply rel_bind; [exact (decode_value_does c v _ HB)|]. intros u w Hu. exact Hu. }
    intros u w Hu. cbn [rel like_option]. destruct HA'. constructor; cbn [zr_type zr_subtype zr_description zr_id zr_parameters zr_disposition zr_value zr_additional e_mime_type e_subtype e_description e_id e_parameters e_disposition e_value e_additional_headers]; try assumption; try exact (Forall2_nil _).
    - refine (option_loose _ _ _ _ _ _ (disposition_loose t d) _). assumption.
    - destruct u, w; try contradiction; [exact Hu|]. split; [split; [reflexivity|apply at_nil]|]. now left. }
  intros en en' Hen. cbn [rel]. destruct HA'. constructor; cbn; try assumption; try reflexivity. destruct (f_mime E); [exact I|exact HB].
Qed.
Lemma acc0_like : forall t d, acc_like t d z_acc0 acc0.
Proof. intros t d. constructor; cbn; try exact I; try constructor. Qed.
End Place.

Section Parse.
Variables (m : mem) (p : N) (lit : literals) (E : env) (D : bytes).
Hypothesis HK : env_ok E.
Hypothesis HA : at_address m p D.
Hypothesis HL : loaded m lit.
Let M := {| memory := m; base := p; total := length D; literal := at_empty lit |}.

(* what holds of every parse; and of one whose headers are quiet *)
Lemma parse_does : forall L (X : Prop), (forall a w j, D = a ++ w ++ j -> L <= length j -> quiet_for E w) -> (X -> forall a w j, D = a ++ w ++ j -> L <= length j -> ~ In 91%N w) ->
  rel (fun z e => like_email (text_ok M D) (text_ok M D) (fixed_ok M D) (loose_ok M D lit) (raw_ok M D) z e /\ (forall j fs, fields E D = Ok (j, fs) -> L <= length j -> like_email kept (domain_kept X) (fixed_ok M D) (loose_ok M D lit) (raw_ok M D) z e)) (z_parse m p lit E D) (parse E D).
Proof.
  intros L X HQ0 HN. unfold z_parse, parse, z_parse_message, parse_message. fold M.
  assert (HQ : forall a w j, D = a ++ w ++ j -> L <= length j -> quiet w) by (intros a w j H1 H2; exact (proj1 (HQ0 a w j H1 H2))).
  assert (HE : f_mime E = true -> forall a w j, D = a ++ w ++ j -> L <= length j -> ~ exists x y, w = x ++ bs "=?" ++ y) by (intros HM a w j H1 H2; exact (proj2 (HQ0 a w j H1 H2) HM)).
  assert (T : tail D D) by apply after_refl.
  pose proof (fields_does M D eq_refl HA L X HQ HN E HK HE D T) as F. destruct (z_fields M E D) as [[j fs]|e|c], (fields E D) as [[j' gs]|e'|c']; try contradiction; [|exact F..].
  destruct F as (Ej & Hj & F1 & F2). cbn [fst snd] in *. subst j'. cbn [bind].
  assert (B : rel (if f_mime E then like_option (raw_ok M D) else like_option (fixed_ok M D)) (if f_mime E then z_mime_body M j else z_body M j) (if f_mime E then mime_body j else Message.body j)).
  { assert (B1 : rel (like_option (raw_ok M D)) (z_mime_body M j) (mime_body j)) by (eapply mime_body_does; eauto). assert (B2 : rel (like_option (fixed_ok M D)) (z_body M j) (Message.body j)) by (eapply body_does; eauto). destruct (f_mime E); assumption. }
  destruct (if f_mime E then z_mime_body M j else z_body M j) as [b|e|c], (if f_mime E then mime_body j else Message.body j) as [b'|e'|c']; try contradiction; [|exact B..]. cbn [bind rel] in B |- *.
  assert (B' : if f_mime E then like_option (raw_ok M D) b b' else like_option (fixed_ok M D) b b') by (destruct (f_mime E); exact B).
  pose proof (set_fields_does M D _ _ _ _ z_acc0 acc0 F1 (acc0_like M D _ _)) as A1.
  assert (A2 : L <= length j -> rel (acc_like M D kept (domain_kept X)) (z_set_fields z_acc0 fs) (set_fields acc0 gs)). { intros HLj. exact (set_fields_does M D _ _ _ _ z_acc0 acc0 (F2 HLj) (acc0_like M D _ _)). }
  destruct (z_set_fields z_acc0 fs) as [a|e|c], (set_fields acc0 gs) as [a'|e'|c']; try contradiction; [|exact A1..]. cbn [bind rel] in *.
  pose proof (finish_does M D L E HE lit HL _ _ _ _ _ _ A1 B') as G1. assert (G2 : L <= length j -> rel (like_email kept (domain_kept X) (fixed_ok M D) (loose_ok M D lit) (raw_ok M D)) (z_finish M lit E a b) (finish E a' b')). { intros HLj. exact (finish_does M D L E HE lit HL _ _ _ _ _ _ (A2 HLj) B'). }
  destruct (z_finish M lit E a b) as [z|e|c], (finish E a' b') as [z'|e'|c']; try contradiction; [|exact G1..]. cbn [rel] in *. split; [exact G1|]. intros j2 fs2 Eq HLj. injection Eq as <- <-. exact (G2 HLj).
Qed.
End Parse.

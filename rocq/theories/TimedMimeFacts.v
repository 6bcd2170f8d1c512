(* The work of encoded words, phrases and texts is quadratic in the text of the header they are in. *)
From Coq Require Import Lia ZifyBool ZifyNat ZifyN.
From Verif Require Import Base Utf8 CharSets Combinators Whitespace QuotedString EncodedWord Charset Base64 QuotedPrintable Common Time Address MimeFields Fields Message Entity Email Rfc5322 Post SoundBase Timed TimedErase TimedCodec TimedCodecFacts TimedMime TimedMimeErase TimedFacts TimedWords TimedAddr TimedBox TimedVals.
Local Open Scope nat_scope.
Ltac blia := unfold bytes, byte in *; lia.

(* ---- the length of decoded texts ---- *)
(* conversion from another charset writes at most four bytes for each byte *)
Definition sized_env (E : env) : Prop := forall c v, length (textcode E c v) <= 4 * length v.
Lemma charset_size : forall E k v r, sized_env E -> decode_charset E k v = Ok r -> length r <= 4 * length v.
Proof.
  intros E k v r HE H. destruct k as [|c]; cbn in H.
  - unfold str_checked in H. destruct (utf8_valid v); [|discriminate]. injection H as <-. lia.
  - injection H as <-. apply HE.
Qed.
Lemma header_qp_size : forall E n d idx r, decode_header_qp_loop E n d idx = Ok r -> length r <= length d + 2 * n.
Proof.
  intros E n. induction n as [|n IH]; intros d idx r H; [discriminate|]. cbn [decode_header_qp_loop] in H. destruct (nth_error d idx) as [b|]; [|injection H as <-; blia].
  destruct (b =? 95)%N.
  { destruct (vec_set d idx 32) as [x|e|c] eqn:X; cbn [bind] in H; [|discriminate..]. apply set_length in X. apply IH in H. blia. }
  destruct (b =? 61)%N.
  { destruct (decode_escape E d idx) as [[x j]|e|c] eqn:X; cbn [bind] in H; [|discriminate..]. apply IH in H. destruct (takes_escape E d idx (length d) (le_n _)) as [_ T]. specialize (T (x, j)). rewrite same_escape in T. specialize (T X). cbn in T. blia. }
  destruct (_ && _).
  { apply IH in H. blia. }
  destruct (put_replacement d idx) as [x|e|c] eqn:X; cbn [bind] in H; [|discriminate..]. apply IH in H. destruct (takes_put d idx (length d) (le_n _)) as [_ T]. specialize (T x). rewrite same_put in T. specialize (T X). cbn in T. blia.
Qed.
Lemma base64_size : forall E n d i offset r, decode_base64_loop E n d i offset = Ok r -> length r <= length d.
Proof.
  intros E n. induction n as [|n IH]; intros d i offset r H; [discriminate|]. cbn [decode_base64_loop] in H.
  assert (B : forall A B (x : res A) (k : A -> res B) y, bind x k = Ok y -> exists a, x = Ok a /\ k a = Ok y) by (intros A B [a|e|c] k y Hy; cbn in Hy; [eauto|discriminate..]).
  apply B in H as ([[i1 o1] [b1|]] & _ & H); [|apply B in H as (m & _ & H); assert (r = firstn m d) as -> by congruence; rewrite firstn_length; blia].
  apply B in H as ([[i2 o2] [b2|]] & _ & H); [|discriminate]. apply B in H as ([[i3 o3] [b3|]] & _ & H); [|discriminate]. apply B in H as ([[i4 o4] [b4|]] & _ & H); [|discriminate].
  apply B in H as (b5 & _ & H). apply B in H as (p & _ & H). apply B in H as (v & _ & H). apply B in H as (d1 & S1 & H). apply unchecked_set_length in S1. apply B in H as ([d2 o5] & X & H). apply IH in H.
  enough (length d2 = length d1) by blia. destruct b3 as [b3|]; [|injection X as <- _; reflexivity].
  apply B in X as (p2 & _ & X). apply B in X as (v2 & _ & X). apply B in X as (d3 & S2 & X). apply unchecked_set_length in S2. destruct b5 as [b5|]; [|injection X as <- _; exact S2].
  apply B in X as (p3 & _ & X). apply B in X as (v3 & _ & X). apply B in X as (d4 & S3 & X). apply unchecked_set_length in S3. injection X as <- _. congruence.
Qed.

(* ---- bounds of any degree ---- *)
Definition weighty (w : nat -> nat) : Prop := (forall a b, a <= b -> w a <= w b) /\ forall a, S a <= w a.
Definition win {A} (w : nat -> nat) (c : nat) (i : bytes) (x : timed (bytes * A)) : Prop :=
  spec (fun r a n => ahead i r /\ n <= c * w (reach i)) (fun n => n <= c * w (reach i)) x.
Definition w1 (x : nat) : nat := S x.
Definition w2 (x : nat) : nat := S x * S x.
Definition w3 (x : nat) : nat := S x * (S x * S x).
Lemma weighty1 : weighty w1.
Proof. split; unfold w1; intros; lia. Qed.
Lemma weighty2 : weighty w2.
Proof. split; unfold w2; intros; nia. Qed.
Lemma weighty3 : weighty w3.
Proof.
  split; unfold w3; intros; [|nia]. apply Nat.mul_le_mono; [lia|]. apply Nat.mul_le_mono; lia.
Qed.
Global Hint Resolve weighty1 weighty2 weighty3 : core.
Lemma win_weak : forall A w c c' i (x : timed (bytes * A)), win w c i x -> c <= c' -> win w c' i x.
Proof. intros A w c c' i x H L. pose proof (Nat.mul_le_mono_r c c' (w (reach i)) L). eapply spec_weak; [exact H| |]; cbn beta; intros; [split; [tauto|lia]|lia]. Qed.
Lemma win_up : forall A w w' c i (x : timed (bytes * A)), win w c i x -> (forall a, w a <= w' a) -> win w' c i x.
Proof. intros A w w' c i x H L. pose proof (mono c _ _ (L (reach i))). eapply spec_weak; [exact H| |]; cbn beta; intros; [split; [tauto|lia]|lia]. Qed.
Lemma win_upto : forall A w K k i (x : timed (bytes * A)), weighty w -> upto K k i x -> win w (K + k) i x.
Proof.
  intros A w K k i x [_ W] H. specialize (W (reach i)). assert (K * reach i + k <= (K + k) * w (reach i)) by (pose proof (mono (K + k) _ _ W); nia).
  eapply spec_weak; [exact H| |]; cbn beta; intros; [split; [tauto|lia]|lia].
Qed.
Lemma win_bind : forall A C w c1 c2 i (x : timed (bytes * A)) (k : bytes * A -> timed (bytes * C)), weighty w ->
  win w c1 i x -> (forall r a, win w c2 r (k (r, a))) -> win w (c1 + c2) i (t_bind x k).
Proof.
  intros A C w c1 c2 i x k [W _] Hx Hk. eapply spec_bind; [exact Hx|cbn beta; intros; lia|]. cbn beta. intros r a n [H1 H2]. specialize (Hk r a). pose proof (mono c2 _ _ (W (reach r) (reach i) ltac:(ah))).
  eapply spec_weak; [exact Hk| |]; cbn beta; intros; [split; [destruct H0; ah|lia]|lia].
Qed.
Lemma win_attempt : forall A C w c1 c2 c3 i (x : timed (bytes * A)) (k : bytes * A -> timed (bytes * C)) f, weighty w ->
  win w c1 i x -> (forall r a, win w c2 r (k (r, a))) -> win w c3 i f -> win w (c1 + (c2 + c3)) i (t_attempt x k f).
Proof.
  intros A C w c1 c2 c3 i x k f [W _] Hx Hk Hf. eapply spec_attempt; [exact Hx| |]; cbn beta.
  - intros r a n [H1 H2]. specialize (Hk r a). pose proof (mono c2 _ _ (W (reach r) (reach i) ltac:(ah))). eapply spec_weak; [exact Hk| |]; cbn beta; intros; [split; [destruct H0; ah|lia]|lia].
  - intros n H. eapply spec_weak; [exact Hf| |]; cbn beta; intros; [split; [destruct H0; ah|lia]|lia].
Qed.
Lemma win_ok : forall A w i (a : A), win w 0 i (t_ok (i, a)).
Proof. intros. split; [apply ahead_refl|lia]. Qed.
Lemma win_err : forall A w i e, win w 0 i (t_err e : timed (bytes * A)).
Proof. intros. cbn. lia. Qed.
Lemma win_optional : forall A w c i (p : timed_parser A), weighty w -> win w c i (p i) -> win w c i (t_optional p i).
Proof. intros A w c i p W H. unfold t_optional. eapply win_weak; [eapply win_attempt; [exact W|exact H|intros; apply win_ok|apply win_ok]|lia]. Qed.
Lemma win_pmap : forall A C w c i (f : A -> C) p, weighty w -> win w c i (p i) -> win w c i (t_pmap f p i).
Proof. intros A C w c i f p W H. unfold t_pmap. eapply win_weak; [eapply win_bind; [exact W|exact H|intros; apply win_ok]|lia]. Qed.
Lemma win_match : forall A w c c' i (p : timed_parser A) ps, weighty w -> win w c i (p i) -> win w c' i (t_match_parsers ps i) -> win w (c + c') i (t_match_parsers (p :: ps) i).
Proof. intros A w c c' i p ps W H1 H2. cbn [t_match_parsers]. eapply win_weak; [eapply win_attempt; [exact W|exact H1|intros; apply win_ok|exact H2]|lia]. Qed.
Lemma win_match_nil : forall A w i, win w 0 i (t_match_parsers ([] : list (timed_parser A)) i).
Proof. intros. apply win_err. Qed.

(* ---- the next encoded word ---- *)
(* the length of the text from the first `=?` on *)
Fixpoint first_ew (i : bytes) : nat :=
  match i with [] => 0 | _ :: r => if starts_with i [61; 63]%N then length i else first_ew r end.
Lemma first_ew_cons : forall c r, first_ew (c :: r) = if starts_with (c :: r) [61; 63]%N then S (length r) else first_ew r.
Proof. reflexivity. Qed.
Lemma first_ew_le : forall i, first_ew i <= length i.
Proof. induction i as [|c r IH]; [apply le_n|]. rewrite first_ew_cons. destruct (starts_with _ _); cbn [length]; blia. Qed.
Lemma first_ew_suffix : forall a r, first_ew r <= first_ew (a ++ r).
Proof.
  induction a as [|c a IH]; intros r; [apply le_n|]. cbn [app]. rewrite first_ew_cons. specialize (IH r). pose proof (first_ew_le (a ++ r)). destruct (starts_with _ _); blia.
Qed.
Lemma first_ew_skip : forall a b, Forall (fun c => c <> 61%N) a -> first_ew (a ++ b) = first_ew b.
Proof.
  induction 1 as [|c a H _ IH]; [reflexivity|]. cbn [app]. rewrite first_ew_cons. cbn [starts_with]. destruct (61 =? c)%N eqn:X; [lia|exact IH].
Qed.
Lemma first_ew_data : forall a b, Forall (fun c => c <> 63%N) a -> first_ew (a ++ b) <= S (length b).
Proof.
  induction 1 as [|c a H F IH]; [pose proof (first_ew_le b); cbn [app]; blia|]. cbn [app]. rewrite first_ew_cons. destruct (starts_with _ _) eqn:X; [|exact IH].
  cbn [starts_with] in X. apply andb_true_iff in X as [_ X]. destruct F as [|x a F _]; [cbn [app]; blia|]. cbn [app starts_with] in X. apply andb_true_iff in X as [X _]. lia.
Qed.
Lemma first_ew_here : forall r, first_ew ([61; 63]%N ++ r) = length ([61; 63]%N ++ r).
Proof. intros r. cbn. now destruct r. Qed.
(* what is left of it in this header *)
Definition left_ew (i : bytes) : nat := first_ew i - (length i - reach i).
(* a text of k bytes is passed whenever something is read *)
Definition jump (k : nat) (i : bytes) : Prop := (k = 0 \/ first_ew i = length i) /\ forall a r, i = a ++ r -> a <> [] -> first_ew r + k <= first_ew i.
Lemma jump0 : forall i, jump 0 i.
Proof. intros i. split; [auto|]. intros a r -> _. pose proof (first_ew_suffix a r). lia. Qed.
Lemma left_mono : forall a r, ahead (a ++ r) r -> left_ew r <= left_ew (a ++ r).
Proof. intros a r H. unfold left_ew. pose proof (first_ew_suffix a r). pose proof (reach_length r). pose proof (reach_length (a ++ r)). unfold ahead in H. lia. Qed.
Lemma left_jump : forall k a r, jump k (a ++ r) -> k <= reach (a ++ r) -> a <> [] -> ahead (a ++ r) r -> left_ew r + k <= left_ew (a ++ r).
Proof.
  intros k a r [J1 J2] L N H. specialize (J2 a r eq_refl N). unfold left_ew. pose proof (first_ew_le r). pose proof (reach_length r). pose proof (reach_length (a ++ r)). unfold ahead in H.
  destruct J1 as [->|J1]; lia.
Qed.

(* ---- encoded words ---- *)
Definition all (f : byte -> bool) (a : bytes) : Prop := Forall (fun c => f c = true) a.
Lemma s_take1 : forall f i, plain f -> spec (fun r a n => i = a ++ r /\ a <> [] /\ all f a /\ n = S (length a)) (fun n => n = 1) (t_take_while1 f i).
Proof.
  intros f i H. pose proof (span_app f i) as L. pose proof (span_all f i) as F. pose proof (span_utf8 f i H) as U. unfold t_take_while1, take_while1, t_step. destruct i as [|c t]; [reflexivity|]. destruct (f c) eqn:X.
  - cbn [negb]. assert (fst (span f (c :: t)) <> []) by (cbn; rewrite X; destruct (span f t); discriminate). destruct (span f (c :: t)) as [a r]. cbn [fst snd] in *. rewrite U. cbn [bind spec]. auto.
  - cbn [negb span fst length]. rewrite X. reflexivity.
Qed.
Lemma ew_char_facts : forall c, ew_encoding_char c = true -> (32 < c < 127 /\ c <> 61 /\ c <> 63)%N.
Proof.
  intros c. unfold ew_encoding_char, especials, one_of. change (bs "()<>@,;:\/[]?.=") with [40; 41; 60; 62; 64; 44; 59; 58; 92; 47; 91; 93; 63; 46; 61]%N. cbn [existsb]. lia.
Qed.
Lemma ew_charset_facts : forall c, ew_charset_char c = true -> (32 < c < 127 /\ c <> 61 /\ c <> 63)%N.
Proof. intros c H. apply ew_char_facts. unfold ew_charset_char, ew_encoding_char in *. now apply andb_true_iff in H as [H _]. Qed.
Lemma ew_text_facts : forall c, ew_text_char c = true -> (32 < c < 127 /\ c <> 63)%N.
Proof. intros c. unfold ew_text_char. lia. Qed.
Definition clean (a : bytes) : Prop := Forall (fun c => c <> 13 /\ c <> 61)%N a.
Lemma clean_ahead : forall a r, clean a -> ahead (a ++ r) r.
Proof. intros a r H. apply ahead_app. eapply Forall_impl; [|exact H]. cbn. tauto. Qed.
Lemma all_clean : forall f a, (forall c, f c = true -> (32 < c < 127 /\ c <> 61 /\ c <> 63)%N) -> all f a -> clean a.
Proof. intros f a Hf H. eapply Forall_impl; [|exact H]. cbn. intros c C. apply Hf in C. lia. Qed.
Lemma s_ew_charset : forall i, spec (fun r _ n => exists a, i = a ++ r /\ a <> [] /\ clean a /\ n = S (2 * length a)) (fun n => n = 1) (m_ew_charset i).
Proof.
  intros i. unfold m_ew_charset. eapply spec_bind; [apply s_take1; intros c C; apply ew_charset_facts in C; lia|auto|]. cbn beta. intros r a n (-> & H & F & ->). cbn [t_step spec]. exists a. split; [reflexivity|]. split; [exact H|]. split; [exact (all_clean _ _ ew_charset_facts F)|lia].
Qed.
Lemma s_ew_encoding : forall i, spec (fun r _ n => exists a, i = a ++ r /\ a <> [] /\ clean a /\ n = S (2 * length a)) (fun n => n = 1) (m_ew_encoding i).
Proof.
  intros i. unfold m_ew_encoding. eapply spec_bind; [apply s_take1; intros c C; apply ew_char_facts in C; lia|auto|]. cbn beta. intros r a n (-> & H & F & ->). cbn [t_step spec]. exists a. split; [reflexivity|]. split; [exact H|]. split; [exact (all_clean _ _ ew_char_facts F)|lia].
Qed.
Lemma s_ew_language : forall m i, spec (fun r _ n => exists a, i = a ++ r /\ clean a /\ n <= 4 + 2 * length a) (fun n => False) (t_optional (t_pair_p (t_tag (bs "*") m) m_ew_encoding) i).
Proof.
  intros m i. change (bs "*") with [42%N]. unfold t_optional. eapply spec_attempt with (G := fun r _ n => exists a, i = a ++ r /\ clean a /\ n <= 4 + 2 * length a) (B := fun n => n <= 4).
  - unfold t_pair_p. eapply spec_bind; [apply s_tag|cbn beta; intros n [-> _]; cbn [length]; lia|]. cbn beta. intros r [] n [-> ->]. eapply spec_bind; [apply s_ew_encoding|cbn beta; intros n ->; cbn [length]; lia|]. cbn beta. intros r' a n (b & -> & _ & B & ->). apply spec_ok.
    exists (42%N :: b). split; [reflexivity|]. split; [constructor; [lia|exact B]|cbn [length]; lia].
  - cbn beta. intros r a n (b & -> & B & L). apply spec_ok. exists b. split; [reflexivity|]. split; [exact B|lia].
  - cbn beta. intros n L. apply spec_ok. exists []. split; [reflexivity|]. split; [constructor|cbn [length]; lia].
Qed.
(* a word costs at most the text up to there, and the square of what is encoded *)
Definition ew_cost (i : bytes) (k n : nat) : Prop := n <= 60 * (S (reach i) * S k) /\ k <= reach i /\ jump k i.
Lemma s_encoded_word : forall E i, sized_env E ->
  spec (fun r a n => exists t k, i = t ++ r /\ Forall (fun c => c <> 13%N) t /\ S k <= length t /\ length a <= 20 * length t /\ ew_cost i k n) (fun n => exists k, ew_cost i k n) (m_encoded_word E i).
Proof.
  intros E i HE. unfold m_encoded_word. change (bs "=?") with [61; 63]%N. change (bs "?") with [63%N]. change (bs "?=") with [63; 61]%N.
  assert (Bad : forall n, n <= 6 * reach i + 40 -> exists k, ew_cost i k n) by (intros n L; exists 0; split; [lia|]; split; [lia|apply jump0]).
  eapply spec_bind; [apply s_tag|cbn beta; intros n [-> _]; apply Bad; cbn [length]; lia|]. cbn beta. intros i1 [] n [-> ->]. cbn [length].
  assert (A0 : ahead ([61; 63]%N ++ i1) i1) by (apply ahead_app; repeat constructor; lia). assert (L0 : length ([61; 63]%N ++ i1) = 2 + length i1) by reflexivity. set (i := [61; 63]%N ++ i1) in *.
  eapply spec_bind; [apply s_ew_charset|cbn beta; intros n ->; apply Bad; lia|]. cbn beta. intros i2 charset n1 (a1 & -> & N1 & C1 & ->). pose proof (clean_ahead a1 i2 C1) as A1. pose proof (app_length a1 i2) as L1.
  eapply spec_bind; [apply s_ew_language|intros n []|]. cbn beta. intros i3 o n2 (a2 & -> & C2 & L2). pose proof (clean_ahead a2 i3 C2) as A2. pose proof (app_length a2 i3) as L2'.
  eapply spec_bind; [apply s_tag|cbn beta; intros n [-> _]; apply Bad; cbn [length]; ah|]. cbn beta. intros i4 [] n3 [-> ->]. cbn [length]. assert (A3 : ahead ([63%N] ++ i4) i4) by (apply ahead_app; repeat constructor; lia). pose proof (app_length [63%N] i4) as L3. cbn [length] in L3.
  eapply spec_bind; [apply s_ew_encoding|cbn beta; intros n ->; apply Bad; ah|]. cbn beta. intros i5 enc n4 (a4 & -> & N4 & C4 & ->). pose proof (clean_ahead a4 i5 C4) as A4. pose proof (app_length a4 i5) as L4.
  eapply spec_bind; [apply s_tag|cbn beta; intros n [-> _]; apply Bad; cbn [length]; ah|]. cbn beta. intros i6 [] n5 [-> ->]. cbn [length]. assert (A5 : ahead ([63%N] ++ i6) i6) by (apply ahead_app; repeat constructor; lia). pose proof (app_length [63%N] i6) as L5. cbn [length] in L5.
  eapply spec_bind; [apply s_take1; intros c C; apply ew_text_facts in C; lia|cbn beta; intros n ->; apply Bad; ah|]. cbn beta. intros i7 data n6 (-> & N6 & C6 & ->).
  assert (A6 : ahead (data ++ i7) i7) by (apply ahead_app; eapply Forall_impl; [|exact C6]; cbn; intros c C; apply ew_text_facts in C; lia). pose proof (app_length data i7) as L6.
  eapply spec_bind; [apply s_tag|cbn beta; intros n [-> _]; apply Bad; cbn [length]; ah|]. cbn beta. intros r [] n7 [-> ->]. cbn [length]. assert (A7 : ahead ([63; 61]%N ++ r) r) by (apply ahead_app; repeat constructor; lia). pose proof (app_length [63; 61]%N r) as L7. cbn [length] in L7.
  set (k := length data) in *. assert (K : S k <= reach i) by ah. assert (Sq : S k * S k <= S (reach i) * S k) by (apply Nat.mul_le_mono_r; lia).
  assert (J : jump k i).
  { split; [right; apply first_ew_here|]. intros b s B Nb. destruct b as [|x b]; [contradiction|]. assert (B' : [63%N] ++ a1 ++ a2 ++ [63%N] ++ a4 ++ [63%N] ++ data ++ [63; 61]%N ++ r = b ++ s) by (unfold i in B; cbn [app] in B |- *; injection B; auto).
    assert (F : first_ew i = length i) by apply first_ew_here. rewrite F. pose proof (first_ew_suffix b s) as X. rewrite <- B' in X.
    pose proof (first_ew_data data ([63; 61]%N ++ r)) as Y. assert (Forall (fun c => c <> 63%N) data) as Z by (eapply Forall_impl; [|exact C6]; cbn; intros c C; apply ew_text_facts in C; lia). specialize (Y Z).
    assert (Q : forall a b, clean a -> first_ew (a ++ b) = first_ew b) by (intros a b' Ca; apply first_ew_skip; eapply Forall_impl; [|exact Ca]; cbn; tauto).
    assert (clean [63%N]) by (repeat constructor; lia). rewrite !Q in X by assumption. ah. }
  eapply spec_known; [reflexivity|]. cbn beta.
  assert (Low : forall n, n <= 6 * reach i + 40 + 12 * (S k * S k) + 15 * S k -> ew_cost i k n) by (intros n L; split; [|split; [lia|exact J]]; nia).
  assert (D : specr (fun v m => length v <= 3 * k + 2 /\ m <= 12 * (S k * S k)) (fun m => m <= 12 * (S k * S k))
    (if bytes_eqb enc (bs "b") then t_decode_base64 E data else if bytes_eqb enc (bs "q") then t_decode_header_qp E data else t_err (Unknown "Unknown encoding"))).
  { destruct (bytes_eqb enc (bs "b")).
    - destruct (decode_base64_cost E data) as [D1 D2]. fold k in D2. assert (8 * S k <= 12 * (S k * S k)) by nia. destruct (t_decode_base64 E data) as [[v|e|c] m]; cbn [fst snd specr] in *; [|lia|exact I]. symmetry in D1. apply base64_size in D1. fold k in D1. split; blia.
    - destruct (bytes_eqb enc (bs "q")); [|cbn; lia]. destruct (decode_header_qp_cost E data) as [D1 D2]. fold k in D2. destruct (t_decode_header_qp E data) as [[v|e|c] m]; cbn [fst snd specr] in *; [|lia|exact I]. symmetry in D1. apply header_qp_size in D1. fold k in D1. split; blia. }
  eapply specr_bind; [exact D|cbn beta; intros m L; exists k; apply Low; ah|]. cbn beta. intros v m [V1 V2].
  assert (T : specr (fun t q => length t <= 4 * length v /\ q <= 1 + 5 * length v) (fun q => q <= 1 + 5 * length v) (match find_charset charset with Some ck => m_decode_charset E ck v | None => t_err (Unknown "Unknown charset") end)).
  { destruct (find_charset charset) as [ck|]; [|cbn; lia]. unfold m_decode_charset, t_step. destruct (decode_charset E ck v) as [t|e|c] eqn:T; cbn [specr]; [|lia|exact I]. apply (charset_size _ _ _ _ HE) in T. split; [exact T|blia]. }
  eapply specr_bind; [exact T|cbn beta; intros q L; exists k; apply Low; ah|]. cbn beta. intros t q [T1 T2]. apply spec_ok.
  exists ([61; 63]%N ++ a1 ++ a2 ++ [63%N] ++ a4 ++ [63%N] ++ data ++ [63; 61]%N), k. assert (W : i = ([61; 63]%N ++ a1 ++ a2 ++ [63%N] ++ a4 ++ [63%N] ++ data ++ [63; 61]%N) ++ r) by (unfold i; rewrite <- !app_assoc; reflexivity).
  assert (M : k + 8 <= length ([61; 63]%N ++ a1 ++ a2 ++ [63%N] ++ a4 ++ [63%N] ++ data ++ [63; 61]%N)).
  { rewrite !app_length. cbn [length]. fold k. destruct a1; [contradiction|]. destruct a4; [contradiction|]. cbn [length]. blia. }
  split; [exact W|]. split; [|split; [blia|split; [blia|apply Low; ah]]].
  assert (Q : forall a, clean a -> Forall (fun c => c <> 13%N) a) by (intros a Ca; eapply Forall_impl; [|exact Ca]; cbn; tauto).
  rewrite !Forall_app. split; [repeat constructor; lia|]. split; [now apply Q|]. split; [now apply Q|]. split; [repeat constructor; lia|]. split; [now apply Q|]. split; [repeat constructor; lia|]. split; [|repeat constructor; lia].
  eapply Forall_impl; [|exact C6]. cbn. intros c C. apply ew_text_facts in C. lia.
Qed.

(* ---- words of phrases ---- *)
Definition blank (c : byte) : Prop := (c = 9 \/ c = 10 \/ c = 13 \/ c = 32)%N.
Lemma spec_post : forall A K (x : timed (bytes * A)) y i P, fst x = y -> Post.post K y i P -> spec (fun r a _ => exists c, i = c ++ r /\ P c a) (fun _ => True) x.
Proof. intros A K [[[r a]|e|c] n] y i P <- H; cbn in *; auto. Qed.
Lemma wsp_blank : forall w, chars rfc_WSP w -> Forall blank w.
Proof. intros w H. eapply Forall_impl; [|exact H]. unfold rfc_WSP, blank. intros c C. lia. Qed.
Lemma fws_blank : forall c v, rfc_FWS c v -> Forall blank c /\ c <> [].
Proof.
  intros c v H. destruct H as [w [N W]|w1 w2 W1 [_ W2]]; [split; [now apply wsp_blank|exact N]|]. split; [|destruct w1; discriminate]. rewrite !Forall_app. split; [now apply wsp_blank|]. split; [|now apply wsp_blank]. constructor; [unfold blank; lia|]. constructor; [unfold blank; lia|constructor].
Qed.
Lemma s_opt_fws : forall i, spec (fun r o n => ahead i r /\ n <= 2 * reach i + 5 /\ (exists f, i = f ++ r /\ Forall blank f) /\ match o with Some a => length a | None => 0 end + length r <= length i) (fun _ => False) (t_optional t_fws i).
Proof.
  intros i. pose proof (spec_post _ (fun _ => True) _ _ i _ (e_fws i) (sound_fws _ i)) as P. pose proof (s_optional_fws i) as H. unfold t_optional in *. destruct (t_fws i) as [[[r a]|e|c] n]; cbn in *; [| |exact I].
  - destruct H as (H1 & _ & H3 & H4). split; [exact H1|]. split; [exact H4|]. split; [|exact H3]. destruct P as (f & F & Q). exists f. split; [exact F|]. apply (fws_blank _ _ Q).
  - destruct H as (H1 & _ & H3 & H4). split; [exact H1|]. split; [exact H4|]. split; [|exact H3]. exists []. split; [reflexivity|constructor].
Qed.
Definition solid (c : bytes) : Prop := Exists (fun x => ~ blank x) c.
Lemma solid_app : forall a b c, solid b -> solid (a ++ b ++ c).
Proof. intros a b c H. unfold solid. rewrite !Exists_app. auto. Qed.
Lemma word_solid : forall c v, rfc_word c v -> solid c.
Proof.
  intros c v H. destruct H as [c v H|c v H]; [destruct H as [l a r Hl Ha Hr]|destruct H as [l b v r Hl Hb Hr]].
  - apply solid_app. destruct Ha as [N Ha]. destruct a as [|x a]; [contradiction|]. inversion Ha as [|? ? X Y]; subst. constructor. clear -X. unfold rfc_atext, rfc_ALPHA, rfc_DIGIT, blank in *. cbn [In] in X. lia.
  - change (l ++ [34%N] ++ b ++ [34%N] ++ r) with (l ++ [34%N] ++ (b ++ [34%N] ++ r)). apply solid_app. constructor. unfold blank. lia.
Qed.
(* something solid is not inside blanks *)
Lemma solid_beyond : forall f i1 c r, f ++ i1 = c ++ r -> Forall blank f -> solid c -> exists b, b <> [] /\ c = f ++ b /\ i1 = b ++ r.
Proof.
  induction f as [|x f IH]; intros i1 c r E F S.
  - exists c. cbn in *. split; [intros ->; inversion S|auto].
  - destruct c as [|y c]; [inversion S|]. cbn in E. injection E as -> E. inversion F as [|? ? X Y]; subst. inversion S as [? ? Q|? ? Q]; subst; [contradiction|].
    destruct (IH _ _ _ E Y Q) as (b & B1 & B2 & B3). exists b. split; [exact B1|]. split; [now rewrite B2|exact B3].
Qed.
Definition turn_ew {A} (c : nat) (size : A -> nat) (i : bytes) (x : timed (bytes * A)) : Prop :=
  spec (fun r a n => ahead i r /\ reach r < reach i /\ size a + 21 * length r <= 21 * length i /\ exists k, left_ew r + k <= left_ew i /\ n <= c * (S (reach i) * S k))
       (fun n => n <= c * w2 (reach i)) x.
Lemma ew_square : forall i k n, ew_cost i k n -> n <= 60 * w2 (reach i).
Proof. intros i k n (H1 & H2 & _). unfold w2. assert (S (reach i) * S k <= S (reach i) * S (reach i)) by (apply mono; lia). lia. Qed.
Lemma reach_past : forall t r, Forall (fun c => c <> 13%N) t -> reach (t ++ r) = length t + reach r.
Proof. intros t r F. pose proof (ahead_app t r F) as A. unfold ahead in A. rewrite app_length in A. lia. Qed.
Lemma t_phrase_word : forall E i, sized_env E -> turn_ew 300 (fun w => S (length w)) i (m_phrase_word E i).
Proof.
  intros E i HE. unfold m_phrase_word, turn_ew. cbn [t_match_parsers].
  pose proof (s_opt_fws i) as F. destruct (t_optional t_fws i) as [[[i1 o]|e|c] n0]; cbn [spec] in F; [|contradiction|exact I]. destruct F as (F1 & F2 & (f & F3 & F4) & _).
  eapply spec_attempt with (G := fun r a n => ahead i1 r /\ reach r < reach i1 /\ S (length a) + 21 * length r <= 21 * length i1 /\ exists k, left_ew r + k <= left_ew i1 /\ n <= 60 * (S (reach i) * S k) + 2 * reach i + 5)
    (B := fun n => exists k, ew_cost i1 k (n - n0) /\ n0 <= n).
  - eapply spec_known; [reflexivity|]. cbn beta iota. eapply spec_weak; [apply s_encoded_word; exact HE| |]; cbn beta.
    + intros r a n (t & k & -> & T1 & T2 & T3 & T4 & T5 & T6). pose proof (ahead_app t r T1) as A. pose proof (reach_past t r T1) as R. rewrite app_length. split; [exact A|]. split; [lia|]. split; [blia|]. exists k. split.
      * apply left_jump; [exact T6|exact T5|intros ->; cbn in T2; lia|exact A].
      * assert (S (reach (t ++ r)) * S k <= S (reach i) * S k) by (apply Nat.mul_le_mono_r; ah). lia.
    + intros n (k & K). exists k. split; [|lia]. now replace (n0 + n - n0) with n by lia.
  - cbn beta. intros r a n (H1 & H2 & H3 & k & H4 & H5). apply spec_ok. split; [ah|]. split; [ah|]. split; [ah|]. exists k. split; [|nia]. rewrite F3 in F1. pose proof (left_mono f i1 F1). subst i. lia.
  - cbn beta. intros n (k & K & L). assert (Kn : n <= 60 * (S (reach i1) * S k) + 2 * reach i + 5) by (destruct K as (K & _); lia). assert (R1 : S (reach i1) * S k <= S (reach i) * S k) by (apply Nat.mul_le_mono_r; ah).
    assert (Kk : k <= reach i) by (destruct K as (_ & K & _); ah). assert (R2 : S (reach i) * S k <= w2 (reach i)) by (unfold w2; apply mono; lia). assert (W1 : 1 + reach i <= w2 (reach i)) by (unfold w2; nia).
    eapply spec_attempt; [eapply spec_and; [apply s_word|exact (spec_post _ (fun _ => True) _ _ i _ (e_word i) (sound_word _ i))]| |]; cbn beta.
    + intros r a m ((H1 & H2 & H3) & c & H4 & H5). apply spec_ok. apply post_upto in H1 as [H1 H6]. split; [exact H1|]. split; [exact H2|]. split; [ah|]. exists k. split; [|nia].
      apply word_solid in H5. rewrite F3 in H4. destruct (solid_beyond f i1 c r H4 F4 H5) as (b & B1 & B2 & B3). rewrite B3 in K. destruct K as (_ & K2 & K3). pose proof F1 as F1'. rewrite F3 in F1' at 1. pose proof (left_mono f i1 F1') as M. rewrite <- F3 in M.
      assert (length i1 = length b + length r) by (rewrite B3; apply app_length). assert (ahead (b ++ r) r) by (rewrite <- B3; ah). pose proof (left_jump k b r K3 K2 B1 ltac:(assumption)) as J. assert (J' : left_ew r + k <= left_ew i1) by (rewrite B3; exact J). blia.
    + intros m [M _]. apply spec_err. lia.
Qed.
Lemma many_ew : forall A c size (p : timed_parser A), (forall i, turn_ew c size i (p i)) -> forall n i,
  spec (fun r l m => ahead i r /\ list_sum (map size l) + 21 * length r <= 21 * length i /\ m <= S c * (S (reach i) * (left_ew i + (reach i - reach r))) + c * w2 (reach i) + 1) (fun _ => False) (t_many_fuel n p i).
Proof.
  intros A c size p Hp. induction n as [|n IH]; intros i; [exact I|]. cbn [t_many_fuel]. apply spec_turn. eapply spec_attempt; [apply Hp| |]; cbn beta.
  - intros j a m (H1 & H2 & H3 & k & H4 & H5). eapply spec_bind; [apply IH|intros q []|]. cbn beta. intros r l q (I1 & I2 & I3). apply spec_ok. split; [ah|]. split; [cbn [map list_sum fold_right]; change (fold_right Nat.add 0 (map size l)) with (list_sum (map size l)); ah|].
    assert (X : S (reach j) * (left_ew j + (reach j - reach r)) <= S (reach i) * (left_ew j + (reach j - reach r))) by (apply Nat.mul_le_mono_r; lia).
    assert (Y : S (reach i) * (S k + (left_ew j + (reach j - reach r))) <= S (reach i) * (left_ew i + (reach i - reach r))) by (apply mono; ah).
    assert (Z : w2 (reach j) <= w2 (reach i)) by (apply weighty2; lia). pose proof (mono c _ _ Z) as Z'. pose proof (mono (S c) _ _ X) as X'. rewrite Nat.mul_add_distr_l in Y. pose proof (mono (S c) _ _ Y) as Y'. clear X Y Z.
    assert (1 <= S (reach i) * S k) as O by lia. set (a1 := S (reach i) * S k) in *. set (a2 := S (reach i) * (left_ew j + (reach j - reach r))) in *. set (a3 := S (reach i) * (left_ew i + (reach i - reach r))) in *. set (a4 := S (reach j) * _) in *. set (a5 := w2 (reach j)) in *. set (a6 := w2 (reach i)) in *.
    clearbody a1 a2 a3 a4 a5 a6. clear - H5 I3 X' Y' Z' O. lia.
  - intros m L. apply spec_ok. split; [apply ahead_refl|]. split; [cbn; lia|lia].
Qed.
Lemma left_reach : forall i, left_ew i <= reach i.
Proof. intros i. unfold left_ew. pose proof (first_ew_le i). pose proof (reach_length i). lia. Qed.
Lemma many1_ew : forall A c size (p : timed_parser A), (forall i, turn_ew c size i (p i)) -> forall i,
  spec (fun r l m => ahead i r /\ reach r < reach i /\ list_sum (map size l) + 21 * length r <= 21 * length i /\ m <= 4 * S c * w2 (reach i)) (fun m => m <= c * w2 (reach i)) (t_many1 p i).
Proof.
  intros A c size p Hp i. unfold t_many1. eapply spec_bind; [apply Hp|auto|]. cbn beta. intros j a m (H1 & H2 & H3 & k & H4 & H5). eapply spec_bind; [exact (many_ew _ _ _ _ Hp _ j)|intros q []|]. cbn beta. intros r l q (I1 & I2 & I3). apply spec_ok.
  split; [ah|]. split; [ah|]. split; [cbn [map list_sum fold_right]; change (fold_right Nat.add 0 (map size l)) with (list_sum (map size l)); ah|].
  pose proof (left_reach i). pose proof (left_reach j).
  assert (X : S (reach j) * (left_ew j + (reach j - reach r)) <= S (reach i) * (2 * reach i)) by (apply Nat.mul_le_mono; lia).
  assert (Y : S (reach i) * S k <= w2 (reach i)) by (unfold w2; apply mono; lia). assert (Z : w2 (reach j) <= w2 (reach i)) by (apply weighty2; lia).
  assert (V : S (reach i) * (2 * reach i) + 1 <= 2 * w2 (reach i)) by (unfold w2; clear; generalize (reach i); intros x; nia).
  pose proof (mono c _ _ Y) as Y'. pose proof (mono c _ _ Z) as Z'. pose proof (mono (S c) _ _ X) as X'. pose proof (mono (S c) _ _ V) as V'. clear X Y Z V.
  set (a1 := S (reach i) * S k) in *. set (a2 := S (reach j) * _) in *. set (a3 := S (reach i) * (2 * reach i)) in *. set (a5 := w2 (reach j)) in *. set (a6 := w2 (reach i)) in *. clearbody a1 a2 a3 a5 a6. clear - H5 I3 X' Y' Z' V'. lia.
Qed.
Lemma s_phrase_m : forall E i, sized_env E -> spec (fun r l m => ahead i r /\ reach r < reach i /\ list_sum (map (fun w => S (length w)) l) + 21 * length r <= 21 * length i /\ m <= 2000 * w2 (reach i)) (fun m => m <= 2000 * w2 (reach i)) (m_phrase E i).
Proof.
  intros E i HE. eapply spec_weak; [apply (many1_ew _ 300 _ _ (fun j => t_phrase_word E j HE))| |]; cbn beta; [intros r l m (H1 & H2 & H3 & H4); repeat split; try tauto; try apply H1; lia|intros; lia].
Qed.

(* ---- texts ---- *)
Lemma s_some_blank : forall i, spec (fun r a n => ahead i r /\ n <= 2 * reach i + 5 /\ (exists f, i = f ++ r) /\ length a + length r <= length i) (fun _ => False) (t_attempt (t_fws i) (fun ra => t_ok ra) (t_ok (i, []))).
Proof.
  intros i. pose proof (s_opt_fws i) as H. unfold t_optional in H. destruct (t_fws i) as [[[r a]|e|c] n]; cbn in *; [| |exact I]; (destruct H as (H1 & H2 & (f & H3 & _) & H4); split; [exact H1|]; split; [exact H2|]; split; [exists f; exact H3|exact H4]).
Qed.
Lemma t_unstructured_turn : forall E b i, sized_env E -> turn_ew 300 (fun a => length (fst a)) i (m_unstructured_step E b i).
Proof.
  intros E b i HE. unfold m_unstructured_step, turn_ew. eapply spec_bind; [apply s_some_blank|intros n []|]. cbn beta. intros i1 w n0 (F1 & F2 & (f & F3) & F5).
  assert (M : left_ew i1 <= left_ew i) by (rewrite F3 in F1; pose proof (left_mono f i1 F1); now subst i).
  eapply spec_attempt; [apply s_encoded_word; exact HE| |]; cbn beta.
  - intros r a n (t & k & T0 & T1 & T2 & T3 & T4 & T5 & T6). assert (A : ahead i1 r) by (rewrite T0; apply ahead_app; exact T1). assert (L : length i1 = length t + length r) by (rewrite T0; apply app_length).
    assert (J : left_ew r + k <= left_ew i1) by (rewrite T0 in *; apply left_jump; [exact T6|exact T5|intros ->; cbn in T2; lia|exact A]).
    assert (R1 : S (reach i1) * S k <= S (reach i) * S k) by (apply Nat.mul_le_mono_r; ah). assert (R2 : S (reach i) <= S (reach i) * S k) by nia.
    destruct b.
    + apply spec_ok. cbn [fst]. split; [ah|]. split; [ah|]. split; [ah|]. exists k. split; [ah|ah].
    + apply spec_concat, spec_ok. cbn [fst]. rewrite app_length. split; [ah|]. split; [ah|]. split; [ah|]. exists k. split; [ah|ah].
  - intros n (k & K). assert (Kn : n <= 60 * (S (reach i1) * S k)) by apply K. assert (R1 : S (reach i1) * S k <= S (reach i) * S k) by (apply Nat.mul_le_mono_r; ah).
    assert (Kk : k <= reach i) by (destruct K as (_ & K & _); ah). assert (R2 : S (reach i) * S k <= w2 (reach i)) by (unfold w2; apply mono; lia). assert (R3 : S (reach i) <= S (reach i) * S k) by nia.
    eapply spec_attempt; [eapply spec_and; [apply s_take_while1; exact vchar_plain|apply s_take1; exact vchar_plain]| |]; cbn beta.
    + intros r a m ((H1 & _ & H2 & _ & _) & H3 & H4 & _ & ->). apply spec_concat, spec_ok. cbn [fst]. rewrite app_length. split; [ah|]. split; [destruct a; [contradiction|cbn [length] in *; ah]|]. split; [ah|]. exists k. split; [|ah].
      rewrite H3 in K, M. destruct K as (_ & K2 & K3). pose proof (left_jump k a r K3 K2 H4 ltac:(rewrite <- H3; exact H1)). lia.
    + intros m [[-> _] _]. apply spec_err. lia.
Qed.
Lemma text_loop_ew : forall E, sized_env E -> forall n b i,
  spec (fun r _ m => ahead i r /\ m <= 350 * (S (reach i) * (left_ew i + (reach i - reach r))) + 300 * w2 (reach i) + 1) (fun _ => False) (m_unstructured_loop E n b i).
Proof.
  intros E HE. induction n as [|n IH]; intros b i; [exact I|]. cbn [m_unstructured_loop]. apply spec_turn. eapply spec_attempt; [apply t_unstructured_turn; exact HE| |]; cbn beta.
  - intros j [text flag] m (H1 & H2 & H3 & k & H4 & H5). cbn [fst] in H3. eapply spec_bind; [apply IH|intros q []|]. cbn beta. intros r rest q (I1 & I2). cbn [t_step spec]. split; [ah|].
    assert (X : S (reach j) * (left_ew j + (reach j - reach r)) <= S (reach i) * (left_ew j + (reach j - reach r))) by (apply Nat.mul_le_mono_r; lia).
    assert (Y : S (reach i) * (S k + (left_ew j + (reach j - reach r))) <= S (reach i) * (left_ew i + (reach i - reach r))) by (apply mono; ah).
    assert (Z : w2 (reach j) <= w2 (reach i)) by (apply weighty2; lia). rewrite Nat.mul_add_distr_l in Y.
    assert (O : S (reach i) <= S (reach i) * S k) by (clear; nia). assert (T : length text <= 21 * reach i) by ah.
    set (a1 := S (reach i) * S k) in *. set (a2 := S (reach i) * (left_ew j + (reach j - reach r))) in *. set (a3 := S (reach i) * (left_ew i + (reach i - reach r))) in *. set (a4 := S (reach j) * _) in *. set (a5 := w2 (reach j)) in *. set (a6 := w2 (reach i)) in *.
    clearbody a1 a2 a3 a4 a5 a6. unfold bytes, byte in *. lia.
  - intros m L. apply spec_ok. split; [apply ahead_refl|lia].
Qed.
Lemma win_text : forall E i, sized_env E -> win w2 2000 i (m_unstructured E i).
Proof.
  intros E i HE. unfold m_unstructured. eapply win_weak with (c := 1100 + 100); [|lia]. eapply win_bind; [auto| |].
  - eapply spec_weak; [apply text_loop_ew; exact HE| |intros n []]. cbn beta. intros r _ m (H1 & H2). split; [exact H1|]. pose proof (left_reach i).
    assert (X : S (reach i) * (left_ew i + (reach i - reach r)) <= S (reach i) * (2 * reach i)) by (apply mono; lia). assert (V : S (reach i) * (2 * reach i) + 1 <= 2 * w2 (reach i)) by (unfold w2; clear; generalize (reach i); intros x; nia). lia.
  - intros r a. cbn beta iota. eapply win_weak; [eapply win_upto; [auto|]|]; [eapply upto_bind with (K1 := 50) (k1 := 50); [|intros; apply upto_ok]|cbn; lia].
    unfold t_ignore_many. eapply upto_weak; [eapply upto_bind; [eapply upto_many; [exact blank_turns|intros j; apply upto_take1; exact wsp_plain]|intros; apply upto_ok]|lia|lia].
Qed.

(* With mime the work of a mail is cubic in its length, that of an entity quadratic. *)
From Coq Require Import Lia ZifyBool ZifyNat ZifyN.
From Verif Require Import Base Utf8 CharSets Charset Combinators Whitespace QuotedString EncodedWord Common Time Address MimeFields Fields Message Entity Email Envs Rfc5322 Post TagNoCase SafetyProofs Timed TimedErase TimedCodec TimedCodecFacts TimedSearch TimedMime TimedMimeErase TimedFacts TimedWords TimedAddr TimedBox TimedVals TimedHead TimedMail TimedMimeFacts TimedMimeBox TimedMimeParam TimedMimeHead.
Local Open Scope nat_scope.
Ltac blia := unfold bytes, byte in *; lia.

(* ---- parsers restricted to short texts ---- *)
Definition below {A} (L : nat) (p : timed_parser A) : timed_parser A := fun i => if length i <? L then p i else t_err (Unknown "too long").
Lemma below_short : forall A L (p : timed_parser A) i, length i < L -> below L p i = p i.
Proof. intros A L p i H. unfold below. apply Nat.ltb_lt in H. unfold bytes, byte in *. now rewrite H. Qed.
Lemma below_head : forall A L C size (p : timed_parser A), bhead L C size p -> head C size (below L p).
Proof.
  intros A L C size p H i. unfold below. destruct (length i <? L) eqn:Q; [apply H; apply Nat.ltb_lt in Q; exact Q|]. split; [cbn; lia|]. intros _. exact I.
Qed.
Definition shrinks {A} (L : nat) (p : timed_parser A) : Prop := forall i, length i < L -> spec (fun r _ _ => length r <= length i) (fun _ => True) (p i).
Lemma many_same : forall A L (p q : timed_parser A), shrinks L p -> (forall i, length i < L -> q i = p i) -> forall n i, length i < L -> t_many_fuel n p i = t_many_fuel n q i.
Proof.
  intros A L p q Hs Hq. induction n as [|n IH]; intros i Hi; [reflexivity|]. cbn [t_many_fuel]. rewrite (Hq i Hi). specialize (Hs i Hi). destruct (p i) as [[[r a]|e|c] m]; cbn [spec] in Hs; [|reflexivity..]. cbn [t_attempt]. rewrite (IH r) by lia. reflexivity.
Qed.
Lemma bhead_shrinks : forall A L C size (p : timed_parser A), bhead L C size p -> shrinks L p.
Proof. intros A L C size p H i Hi. eapply spec_weak; [exact (proj1 (H i Hi))| |auto]. cbn beta. intros r a n ((X & _) & _). lia. Qed.
Lemma trace_shrinks : forall E i, spec (fun r _ _ => length r <= length i) (fun _ => True) (t_trace E i).
Proof.
  intros E i. destruct h_return_path as [C1 H1]. destruct h_received as [C2 H2]. unfold t_trace. eapply spec_bind; [exact (optional_head _ _ _ _ (H1 E) i)|auto|]. cbn beta. intros r o n [X _]. assert (X' : length r <= length i) by (destruct X as [->|[[X _] _]]; lia).
  unfold t_many1. eapply spec_bind with (G := fun r' _ _ => length r' <= length i) (B := fun _ => True); [|auto|intros; apply spec_ok; assumption]. eapply spec_bind; [exact (proj1 (H2 E r))|auto|]. cbn beta. intros r1 a n1 ((Y & _) & _).
  eapply spec_bind; [exact (s_run _ _ _ _ (H2 E) r1)|intros ? []|]. cbn beta. intros r2 l n2 (_ & Z & _). apply spec_ok. lia.
Qed.
Lemma block_below : forall E L q i, length i < L -> shrinks L q -> block_of E (below L q) i = block_of E q i.
Proof.
  intros E L q i Hi Hq. unfold block_of. pose proof (trace_shrinks E i) as T. destruct (t_trace E i) as [[[r [rp rc]]|e|c] n]; cbn [spec] in T; [|reflexivity..]. cbn [t_bind]. unfold t_many.
  rewrite (many_same _ L q (below L q) Hq (fun j => below_short _ L q j) _ r) by lia. reflexivity.
Qed.
Lemma block_shrinks : forall c p, block c p -> forall L, shrinks L p.
Proof. intros c p H L i _. eapply spec_weak; [exact (proj1 (H i))| |auto]. cbn beta. intros r a n (_ & X & _). lia. Qed.
Lemma m_fields_cost : exists K, forall E i, cost_env E -> spec (fun r l n => length l + length r <= length i /\ Forall (fun f => third f <= 2 * length i) l /\ n <= K * w3 (length i)) (fun _ => False) (m_fields E i).
Proof.
  destruct block_cost as [C0 Hb]. destruct b_resent_field as [C3 H3]. destruct b_any_field as [C HC]. exists (48 * (C0 + C3 + 2) + 4 * S C). intros E i HE. set (L := S (length i)).
  pose proof (H3 E L HE) as R3. pose proof (HC E L HE) as RC. pose proof (Hb E _ _ (below_head _ _ _ _ _ R3)) as B. pose proof (below_head _ _ _ _ _ RC) as RH.
  pose proof (fields_spent _ _ (f_trace E) _ _ third i B RH (fun f X => ltac:(unfold third; rewrite X; reflexivity))) as F. cbv beta in F.
  assert (Q : m_fields E i = (let+ (i, t) := if f_trace E then t_many (block_of E (below L (m_resent_field E))) i else t_ok (i, []) in let+ (i, l) := t_many (below L (m_any_field E)) i in t_ok (i, t ++ l))).
  { unfold m_fields. assert (T : t_many (m_trace_block E) i = t_many (block_of E (below L (m_resent_field E))) i).
    { unfold t_many. symmetry. apply (many_same _ L); [exact (block_shrinks _ _ B L)| |unfold L; lia]. intros j Hj. symmetry. exact (block_below E L (m_resent_field E) j Hj (bhead_shrinks _ _ _ _ _ R3)). }
    rewrite <- T. clear T. destruct (f_trace E).
    - assert (S : spec (fun r _ _ => length r <= length i) (fun _ => True) (t_many (m_trace_block E) i)).
      { unfold t_many. rewrite <- (many_same _ L (block_of E (below L (m_resent_field E))) (m_trace_block E)); [|exact (block_shrinks _ _ B L)|intros j Hj; symmetry; exact (block_below E L (m_resent_field E) j Hj (bhead_shrinks _ _ _ _ _ R3))|unfold L; lia].
        eapply spec_weak; [exact (block_run _ _ B _ i)| |auto]. cbn beta. intros r l n (X & _). lia. }
      destruct (t_many (m_trace_block E) i) as [[[r t]|e|c] n]; cbn [spec] in S; [|reflexivity..]. cbn [t_bind]. unfold t_many. rewrite (many_same _ L (m_any_field E) (below L (m_any_field E)) (bhead_shrinks _ _ _ _ _ RC) (fun j => below_short _ L _ j) _ r) by (unfold L; lia). reflexivity.
    - cbn [t_bind t_ok]. unfold t_many. rewrite (many_same _ L (m_any_field E) (below L (m_any_field E)) (bhead_shrinks _ _ _ _ _ RC) (fun j => below_short _ L _ j) _ i) by (unfold L; lia). reflexivity. }
  rewrite Q. clear Q. eapply spec_weak; [exact F| |auto]. cbn beta. intros r l n (X & Y & Z). split; [exact X|]. split; [exact Y|].
  unfold w3. fold L in Z |- *. unfold d3 in Z. assert (O : 1 <= L * L) by (unfold L; nia). set (z := L * L) in *. replace (L * z) with (z * L) by lia. rewrite Nat.mul_assoc.
  assert (M : 6 * (8 * S (C0 + C3 * z) + 8) + 4 * S (C * z) <= (48 * (C0 + C3 + 2) + 4 * S C) * z) by (pose proof (mono C0 _ _ O); lia). pose proof (Nat.mul_le_mono_r _ _ L M). lia.
Qed.
Lemma mime_body_length : forall i b, mime_body i = Ok (Some b) -> length b <= length i.
Proof.
  intros i b H. destruct i as [|c i]; [discriminate|]. unfold mime_body in H. destruct (tag CRLF _ (c :: i)) as [[r []]|e|x] eqn:T; cbn [bind] in H; [|discriminate..]. injection H as <-.
  pose proof (s_tag CRLF "TAG ERROR: Headers must be followed by a CRLF sequence." (c :: i)) as S. unfold t_tag, t_step in S. rewrite T in S. cbn [spec] in S. destruct S as [-> _]. rewrite app_length. blia.
Qed.
Theorem m_parse_cubic : exists K, forall E d, cost_env E -> f_mime E = true -> (forall c, parse E d <> Crash c) -> snd (m_parse E d) <= K * w3 (length d).
Proof.
  destruct m_fields_cost as [K H]. exists (K + 60). intros E d HE HM NC. assert (NC' : forall c, fst (m_parse E d) <> Crash c) by (intros c; rewrite (m_parse_erases E HM d); apply NC). clear NC.
  assert (O2 : w2 (length d) <= w3 (length d)) by apply square_cube. assert (O1 : S (length d) <= w2 (length d)) by apply square_up. revert NC'. unfold m_parse, m_parse_message. specialize (H E d HE).
  destruct (m_fields E d) as [[[r fs]|e|c] n] eqn:F; cbn [spec] in H; [|contradiction|intros NC; exfalso; exact (NC c eq_refl)]. destruct H as (H1 & H2 & H3). rewrite Nat.mul_add_distr_r. set (z := w3 (length d)) in *. set (y := w2 (length d)) in *.
  intros _. unfold m_mime_body, t_step in *. cbn [t_bind fst snd]. destruct (mime_body r) as [b|e|c] eqn:B; cbn [t_bind t_ok fst snd] in *; [|clearbody z y; lia..].
  unfold t_set_fields, t_step in *. destruct (set_fields acc0 fs) as [a|e|c] eqn:SF; cbn [t_bind fst snd] in *; [|clearbody z y; lia..]. unfold m_finish, t_step in *.
  assert (W : match v_from a with Some [x] => mailbox_size x | _ => 0 end <= 33 * S (length d)).
  { destruct (v_from a) as [l|] eqn:V; [|lia]. apply (set_fields_from fs acc0 a l SF eq_refl) in V. rewrite Forall_forall in H2. specialize (H2 _ V). unfold third in H2. cbn [weight] in H2. unfold one_box in H2. destruct l as [|x [|y' l]]; lia. }
  set (q := match v_from a with Some [x] => mailbox_size x | _ => 0 end) in *. clearbody q. destruct (finish_others E a) as [[]|e|c]; cbn [t_bind fst snd] in *; [|clearbody z y; lia..].
  destruct b as [b|]; cbn [t_bind t_ok fst snd] in *; [|clearbody z y; lia]. apply mime_body_length in B. set (enc := match v_cte a with Some e => e | None => SevenBit end). destruct (decode_value_cost E b enc) as (_ & D & _).
  assert (Q : S (length b) * S (length b) <= y) by (unfold y, w2; apply Nat.mul_le_mono; lia). destruct (t_decode_value E b enc) as [[v|e|c] k]; cbn [t_bind t_ok fst snd] in *; clearbody z y; blia.
Qed.

(* ---- entities ---- *)
Lemma header_part_cost : exists K, forall E i, cost_env E -> (forall c, fst (m_header_part E i) <> Crash c) -> snd (m_header_part E i) <= K * w2 (length i).
Proof.
  destruct b_entity_header as [C HC]. exists (4 * S C + 10). intros E i HE. set (L := S (length i)). pose proof (HC E L HE) as RC. pose proof (s_run _ _ _ _ (below_head _ _ _ _ _ RC) i) as R.
  assert (Q : t_many (below L (m_entity_header E)) i = t_many (m_entity_header E) i) by (unfold t_many; symmetry; apply (many_same _ L); [exact (bhead_shrinks _ _ _ _ _ RC)|exact (fun j => below_short _ L _ j)|unfold L; lia]).
  rewrite Q in R. clear Q. unfold m_header_part. destruct (t_many (m_entity_header E) i) as [[[r hs]|e|c] n]; cbn [spec] in R; [|contradiction|intros NC; exfalso; exact (NC c eq_refl)]. intros _. cbn [t_bind t_step fst snd]. destruct R as (R1 & R2 & _). destruct R1 as [[R1 _] R3].
  assert (O : S (length i) <= w2 (length i)) by apply square_up. assert (N : n <= 4 * S C * w2 (length i)).
  { pose proof (reach_length r) as Lr. assert (S (reach r) <= S (length i)) by lia. unfold w2. fold L. unfold d2 in R3. assert (M : S (C * L) <= S C * L) by (unfold L; nia). assert (X : 2 * S (C * L) * (S (length i) + length i) <= 4 * S C * (L * L)) by (fold L; assert (L + length i <= 2 * L) by (unfold L; lia); nia).
    assert (Y : 2 * S (C * L) * length i + 2 * S (C * L) * S (reach r) <= 2 * S (C * L) * (S (length i) + length i)) by nia. set (p := 2 * S (C * L)) in *. clearbody p. fold L in X, Y. lia. }
  rewrite Nat.mul_add_distr_r. set (z := w2 (length i)) in *. clearbody z. set (k := 4 * S C * z) in *. clearbody k.
  destruct r as [|x r]; [cbn; lia|]. unfold t_tag, t_step. destruct (tag CRLF _ (x :: r)) as [[r' []]|e|c]; cbn [t_bind t_ok fst snd]; change (length CRLF) with 2; lia.
Qed.
Theorem m_raw_entity_quadratic : exists K, forall E i, cost_env E -> (forall c, raw_entity E i <> Crash c) -> snd (m_raw_entity E i) <= K * w2 (length i).
Proof.
  destruct header_part_cost as [K H]. exists (K + 30). intros E i HE NC. specialize (H E i HE). assert (NC' : forall c, fst (m_raw_entity E i) <> Crash c) by (intros c; rewrite (m_raw_entity_erases E i); apply NC). clear NC.
  assert (NP : forall c, fst (m_header_part E i) <> Crash c). { intros c X. apply (NC' c). unfold m_raw_entity. destruct (m_header_part E i) as [x n]. cbn [fst] in X. subst x. reflexivity. }
  specialize (H NP). clear NP NC'. unfold m_raw_entity. destruct (m_header_part E i) as [[[len a]|e|c] n]; cbn [snd t_bind t_step] in *; [|nia..]. assert (O : S (length i) <= w2 (length i)) by apply square_up. rewrite Nat.mul_add_distr_r. set (z := w2 (length i)) in *.
  destruct (usize_sub (length i) len) as [k|e|c]; cbn [t_bind t_step fst snd]; [|clearbody z; lia..]. unfold index_from. destruct (length i <? k) eqn:Q; cbn [t_bind t_step fst snd]; [clearbody z; lia|].
  set (v := skipn k i). set (enc := match h_encoding a with Some e => e | None => SevenBit end). assert (Lv : length v <= length i) by (unfold v; rewrite skipn_length; blia). destruct (decode_value_cost E v enc) as (_ & D & _).
  assert (W : S (length v) * S (length v) <= z) by (unfold z, w2; apply Nat.mul_le_mono; blia). destruct (match h_type a with Some x => x | None => default_content_type end) as [[t s] p]. destruct (t_decode_value E v enc) as [[x|e|c] m]; cbn [t_bind t_ok fst snd] in *; clearbody z; lia.
Qed.
Definition parts_size (l : list bytes) : nat := list_sum (map (fun p => S (length p)) l).
Lemma to_length : forall (i : bytes) n r, unchecked_to i n = Ok r -> length r <= n.
Proof. intros i n r. unfold unchecked_to. destruct (length i <? n) eqn:Q; [discriminate|]. intros H. injection H as <-. rewrite firstn_length. lia. Qed.
Lemma fits_before : forall b i, fits (fun p => S (length p)) i (t_before_boundary b i).
Proof.
  intros b i r p H. unfold t_before_boundary, t_step in H. destruct (t_before_boundary_idx i b) as [[[k l]|e|c] n] eqn:X; cbn [t_bind fst] in H; [|discriminate..].
  assert (Hl : 1 <= l). { unfold t_before_boundary_idx in X. destruct (t_and _ _) as [[[]|e|c] m]; cbn [t_bind t_ok] in X; [injection X as _ <- _; lia| |discriminate..]. destruct (t_find_boundary _ _ _ _) as [[[j|]|e|c] q]; cbn [t_bind t_ok t_err fst snd] in X; [injection X as _ <- _; lia|discriminate..]. }
  destruct (unchecked_from i (k + l)) as [r'|e|c] eqn:U; cbn [t_bind fst] in H; [|discriminate..]. destruct (unchecked_to i k) as [p'|e|c] eqn:V; cbn [t_bind t_ok fst] in H; [|discriminate..]. injection H as <- <-. apply from_length in U. apply to_length in V. lia.
Qed.
Lemma fits_closing : forall b i, fits (fun p => length p) i (t_before_closing_boundary b i).
Proof.
  intros b i r p H. unfold t_before_closing_boundary, t_step in H. destruct (t_find_closing _ _ _ _) as [[o|e|c] n]; cbn [t_bind fst] in H; [|discriminate..]. destruct o as [k|]; cbn [ok_or t_bind fst] in H; [|discriminate].
  destruct (unchecked_from i _) as [r'|e|c] eqn:U; cbn [t_bind fst] in H; [|discriminate..]. destruct (unchecked_to i k) as [p'|e|c] eqn:V; cbn [t_bind t_ok fst] in H; [|discriminate..]. injection H as <- <-. apply from_length in U. apply to_length in V. lia.
Qed.
Lemma parts_length : forall b i l, fst (t_split_parts b i) = Ok l -> parts_size l <= S (length i).
Proof.
  intros b i l H. unfold t_split_parts, t_step in H. assert (F : fits parts_size i (t_many (t_before_boundary b) i)) by exact (fits_many _ _ _ (fits_before b) (S (length i)) i). destruct (t_many (t_before_boundary b) i) as [[[r ps]|e|c] n]; cbn [t_bind fst] in H; [|discriminate..].
  specialize (F r ps eq_refl). pose proof (fits_closing b r) as G. destruct (t_before_closing_boundary b r) as [[[r' p]|e|c] m]; cbn [t_bind fst] in H; [|discriminate..]. specialize (G r' p eq_refl). cbv beta in G.
  assert (Z : forall a c, parts_size (a ++ c) = parts_size a + parts_size c) by (intros; unfold parts_size; rewrite map_app, list_sum_app; reflexivity). assert (T : parts_size (ps ++ [p]) <= S (length i)) by (rewrite Z; unfold parts_size at 2; cbn; blia).
  destruct (ps ++ [p]) as [|x q]; cbn in H; [discriminate|]. injection H as <-. unfold parts_size in *. cbn [map list_sum fold_right] in T. unfold list_sum. lia.
Qed.
Lemma parts_cost : exists K, forall E, cost_env E -> forall l, (forall c, raw_entities E l <> Crash c) -> snd (m_raw_entities E l) <= K * (S (parts_size l) * S (parts_size l)).
Proof.
  destruct m_raw_entity_quadratic as [K H]. exists (K + 1). intros E HE. induction l as [|p l IH]; intros NC; [cbn; lia|]. cbn [m_raw_entities]. specialize (H E p HE). unfold w2 in H.
  change (parts_size (p :: l)) with (S (length p) + parts_size l). set (s := parts_size l) in *. set (k := S (length p)) in *. assert (SQ : k * k + S s * S s + 1 <= S (k + s) * S (k + s)) by (unfold k; nia).
  cbn [raw_entities] in NC. pose proof (m_raw_entity_erases E p) as X. destruct (m_raw_entity E p) as [[e|e|c] n]; cbn [fst snd t_bind] in *.
  - rewrite <- X in *. cbn [bind] in NC. assert (n <= K * (k * k)) by (apply H; intros c Y; discriminate Y). assert (NL : forall c, raw_entities E l <> Crash c) by (intros c Y; rewrite Y in NC; exact (NC c eq_refl)). specialize (IH NL).
    pose proof (mono (K + 1) _ _ SQ). destruct (m_raw_entities E l) as [[es|e'|c] m]; cbn [fst snd t_bind t_step] in *; lia.
  - rewrite <- X in *. assert (n <= K * (k * k)) by (apply H; intros c Y; discriminate Y). pose proof (mono (K + 1) _ _ SQ). lia.
  - rewrite <- X in NC. exfalso. exact (NC c eq_refl).
Qed.
Definition entity_size (r : raw_entity_t) : nat := length (e_value r) + list_sum (map (fun p => length (snd p)) (e_parameters r)).
Lemma get_size : forall (l : list (bytes * bytes)) n v, map_get l n = Some v -> length v <= list_sum (map (fun p => length (snd p)) l).
Proof. induction l as [|[n' v'] l IH]; intros n v H; [discriminate|]. cbn [map_get] in H. cbn [map list_sum fold_right snd]. destruct (bytes_eqb n n'); [injection H as ->; lia|]. apply IH in H. unfold list_sum in H. blia. Qed.
Theorem m_entity_quadratic : exists K, forall E r, cost_env E -> (forall c, entity E r <> Crash c) -> snd (m_entity E r) <= K * w2 (entity_size r).
Proof.
  destruct parts_cost as [K H]. exists (4 * K + 50). intros E r HE NC. unfold m_entity. unfold entity in NC. set (s := entity_size r). assert (O : S s <= w2 s) by apply square_up. assert (Lv : length (e_value r) <= s) by (unfold s, entity_size; lia).
  assert (Lp : forall n v, map_get (e_parameters r) n = Some v -> length v <= s) by (intros n v Q; apply get_size in Q; unfold s, entity_size; lia). clearbody s. rewrite Nat.mul_add_distr_r.
  destruct (e_mime_type r); try (cbn [t_step snd]; set (z := w2 s) in *; clearbody z; lia).
  - destruct (map_get (e_parameters r) (bs "charset")) as [cs|] eqn:M; cbn [t_ok snd]; [|lia]. apply Lp in M. unfold m_decode_charset, t_step. cbn [t_bind snd fst]. destruct (find_charset (lowercase cs)) as [k|]; cbn [t_ok snd]; [|set (z := w2 s) in *; clearbody z; blia].
    destruct (decode_charset E k (e_value r)) as [v|e|c] eqn:D; cbn [t_bind t_ok fst snd]; [pose proof (charset_size E k _ _ (proj2 HE) D)|..]; set (z := w2 s) in *; clearbody z; blia.
  - unfold m_parse_multipart, t_step. pose proof (split_parts_same E (e_value r) (e_parameters r)) as SP. destruct (map_get (e_parameters r) (bs "boundary")) as [b|] eqn:M; cbn [ok_or t_bind fst snd bind] in *; [|set (z := w2 s) in *; clearbody z; lia]. apply Lp in M.
    pose proof (split_any b (e_value r)) as SA. assert (W : S (length b) * S (length (e_value r)) <= w2 s) by (unfold w2; apply Nat.mul_le_mono; blia). pose proof (parts_length b (e_value r)) as PL. destruct (t_split_parts b (e_value r)) as [[l|e|c] n]; cbn [t_bind fst snd bind] in *; [|set (z := w2 s) in *; clearbody z; lia..].
    specialize (PL l eq_refl). assert (NL : forall c, raw_entities E l <> Crash c). { intros c Y. rewrite Y in SP. rewrite SP in NC. exact (NC c eq_refl). } pose proof (H E HE l NL) as HC.
    assert (X : S (parts_size l) * S (parts_size l) <= 4 * w2 s) by (unfold w2; assert (S (parts_size l) <= 2 * S s) by lia; assert (S (parts_size l) * S (parts_size l) <= (2 * S s) * (2 * S s)) by (apply Nat.mul_le_mono; assumption); lia).
    pose proof (mono K _ _ X). destruct (m_raw_entities E l) as [[es|e|c] m]; cbn [t_bind t_ok fst snd] in *; set (z := w2 s) in *; clearbody z; lia.
Qed.

(* The work of parameters: what is parsed is counted, then joined and decoded. *)
From Coq Require Import Lia ZifyBool ZifyNat ZifyN Permutation.
From Verif Require Import Base Utf8 CharSets Combinators Whitespace QuotedString EncodedWord Charset Percent Common Time Address MimeFields Fields Message Entity Email Envs Rfc5322 RfcFields Post TagNoCase SoundFields ParamProofs Timed TimedErase TimedCodec TimedCodecFacts TimedMime TimedMimeErase TimedFacts TimedWords TimedAddr TimedBox TimedVals TimedHead TimedMimeFacts TimedMimeBox.
Local Open Scope nat_scope.
Ltac blia := unfold bytes, byte in *; lia.

(* ---- sizes ---- *)
Notation segs := (list (N * (bool * bytes))).
Definition seg_size (s : segs) : nat := list_sum (map (fun x => S (length (snd (snd x)))) s).
Definition cx_size (c : list (bytes * segs)) : nat := list_sum (map (fun x => S (length (fst x)) + seg_size (snd x)) c).
Definition param_size (p : param) : nat := let '(name, _, _, value) := p in 2 + length name + length value.
Definition params_size (l : list param) : nat := list_sum (map param_size l).
Lemma seg_cons : forall x s, seg_size (x :: s) = S (length (snd (snd x))) + seg_size s.
Proof. reflexivity. Qed.
Lemma cx_cons : forall x c, cx_size (x :: c) = S (length (fst x)) + seg_size (snd x) + cx_size c.
Proof. reflexivity. Qed.
Lemma imap_insert_size : forall m k v, seg_size (imap_insert m k v) <= seg_size m + S (length (snd v)).
Proof.
  induction m as [|[k' v'] m IH]; intros k v; cbn [imap_insert]; [rewrite seg_cons; cbn; blia|]. destruct (k =? k')%N; rewrite !seg_cons; cbn [snd]; [blia|]. specialize (IH k v). blia.
Qed.
Lemma imap_remove_size : forall m k v r, imap_remove m k = Some (v, r) -> seg_size r + S (length (snd v)) = seg_size m /\ S (length r) = length m.
Proof.
  induction m as [|[k' v'] m IH]; intros k v r H; cbn [imap_remove] in H; [discriminate|]. destruct (k =? k')%N; [injection H as -> ->; rewrite seg_cons; cbn [snd length]; split; blia|].
  destruct (imap_remove m k) as [[v1 r1]|] eqn:R; [|discriminate]. injection H as -> <-. destruct (IH _ _ _ R) as [H1 H2]. rewrite !seg_cons. cbn [snd length]. split; blia.
Qed.
Lemma map_insert_size : forall c n k v, cx_size (map_insert c n (imap_insert (match map_get c n with Some m => m | None => [] end) k v)) <= cx_size c + S (length n) + S (length (snd v)).
Proof.
  induction c as [|[n' s] c IH]; intros n k v; cbn [map_insert map_get].
  - rewrite cx_cons. cbn [fst snd]. pose proof (imap_insert_size [] k v). change (seg_size []) with 0 in *. change (cx_size []) with 0. blia.
  - destruct (bytes_eqb n n') eqn:Q; rewrite !cx_cons; cbn [fst snd].
    + pose proof (imap_insert_size s k v). blia.
    + specialize (IH n k v). blia.
Qed.
Lemma split_cost : forall l pl cx, takes (5 * params_size l + 1) (m_split_parameters l pl cx) (fun '(_, cx') => cx_size cx' <= cx_size cx + params_size l /\ (NoDup (map fst cx) -> NoDup (map fst cx'))).
Proof.
  induction l as [|[[[n k] e] v] l IH]; intros pl cx; [apply takes_step; [lia|]; intros a A; injection A as <-; split; [cbn; lia|auto]|].
  change (params_size ((n, k, e, v) :: l)) with (2 + length n + length v + params_size l). cbn [m_split_parameters]. destruct k as [k|].
  - eapply takes_more; [eapply takes_bind; [apply (takes_step _ (5 + 4 * length n) _ _ (fun _ => True)); auto|]; intros _ _; apply IH|blia|].
    intros [pl' cx'] [H1 H2]. pose proof (map_insert_size cx n k (e, v)). cbn [snd] in *. split; [blia|]. intros ND. apply H2. apply map_insert_NoDup, ND.
  - eapply takes_more; [eapply takes_bind; [apply (takes_step _ (2 + length n) _ _ (fun _ => True)); auto|]; intros _ _; apply IH|blia|].
    intros [pl' cx'] [H1 H2]. split; [blia|exact H2].
Qed.
Lemma takes_parameter : forall E v cs, sized_env E -> takes (12 * (S (length v) * S (length v))) (m_decode_parameter E v cs) (fun r => length r <= 4 * length v).
Proof.
  intros E v cs HE. unfold m_decode_parameter. destruct (decode_parameter_cost E v cs) as [D1 D2].
  assert (P : takes (4 * (S (length v) * S (length v))) (t_decode_parameter E v cs) (fun r => length r <= 4 * length v)).
  { split; [exact D2|]. intros a A. rewrite D1 in A. unfold decode_parameter in A. destruct (find_charset cs) as [k|].
    - destruct (decode_percents E v (rev (percents_from 0 v))) as [d|e|c] eqn:X; cbn [bind] in A; [|discriminate..]. apply (charset_size _ _ _ _ HE) in A.
      destruct (takes_percents E (rev (percents_from 0 v)) v (length v) (le_n _)) as [_ T]. specialize (T d). rewrite same_percents in T. specialize (T X). cbv beta in T. blia.
    - unfold str_unchecked in A. destruct (utf8_valid v); [|discriminate]. injection A as <-. blia. }
  eapply (takes_more _ (4 * (S (length v) * S (length v)) + 4 * length v)); [eapply takes_bind; [exact P|]|nia|intros a A; exact A]. intros r R. apply takes_step; [exact R|]. intros a A. injection A as <-. exact R.
Qed.
Lemma takes_scan : forall f v, takes (S (length v)) (t_take_while f v) (fun '(r, a) => length a + length r = length v).
Proof.
  intros f v. unfold t_take_while, take_while, t_step. pose proof (span_length f v) as L. destruct (span f v) as [a r]. cbn [fst snd] in *. split; [cbn [snd]; blia|]. cbn [fst].
  intros [r' a'] H. unfold str_unchecked in H. destruct (utf8_valid a); cbn [bind] in H; [|discriminate]. assert (r' = r /\ a' = a) as [-> ->] by (split; congruence). exact L.
Qed.
Lemma takes_tag : forall e m v, takes (S (length e)) (t_tag e m v) (fun '(r, _) => length r <= length v).
Proof.
  intros e m v. pose proof (s_tag e m v) as H. unfold t_tag, t_step in *. split; [cbn [snd]; lia|]. cbn [fst]. intros [r u] X. rewrite X in H. cbn in H. destruct H as [-> _]. rewrite app_length. blia.
Qed.
Lemma lowercase_length : forall v, length (lowercase v) = length v.
Proof. intros. unfold lowercase. apply map_length. Qed.
Lemma takes_first : forall E b v L, sized_env E -> length v < L -> takes (20 * (S (length v) * L)) (m_first_segment E b v) (fun '(r, cs) => length r <= 4 * length v /\ match cs with Some c => length c <= length v | None => True end).
Proof.
  intros E b v L HE HL. unfold m_first_segment. destruct b; [|apply takes_ok; split; [blia|exact I]].
  apply (takes_more _ (S (length v) + (2 * length v + (2 + (S (length v) + (2 + (length v + (12 * (S (length v) * S (length v)) + 0)))))))) with (P := fun '(r, cs) => length r <= 4 * length v /\ match cs with Some c => length c <= length v | None => True end); [| |auto].
  - eapply takes_bind; [apply takes_scan|]. intros [v1 cs] H1. eapply takes_bind; [apply (takes_step _ (2 * length v) _ _ (fun c => length c <= length v)); [blia|]; intros a A; injection A as <-; rewrite lowercase_length; blia|]. intros cs' H2.
    eapply takes_bind; [eapply takes_more; [apply takes_tag|cbn; lia|intros a A; exact A]|]. intros [v2 []] H3. eapply takes_bind; [eapply takes_more; [apply takes_scan|blia|intros a A; exact A]|]. intros [v3 lg] H4.
    eapply takes_bind; [eapply takes_more; [apply takes_tag|cbn; lia|intros a A; exact A]|]. intros [v4 []] H5. assert (length v4 <= length v) by blia. eapply takes_bind; [apply (takes_step _ (length v) _ _ (fun _ => True)); auto|]. intros _ _.
    eapply takes_bind; [eapply takes_more; [apply takes_parameter; exact HE|nia|intros a A; exact A]|]. intros r R. apply takes_ok. split; [cbv beta in R; blia|exact H2].
  - assert (S (length v) * S (length v) <= S (length v) * L) by (apply mono; blia). assert (S (length v) <= S (length v) * L) by nia. blia.
Qed.
Lemma takes_next : forall E n s cs idx value L, sized_env E -> seg_size s < L -> match cs with Some c => length c < L | None => True end ->
  takes (30 * (S (seg_size s) * L)) (m_next_segments E n s cs idx value) (fun _ => True).
Proof.
  intros E. induction n as [|n IH]; intros s cs idx value L HE HL HC; [split; [cbn; lia|trivial]|]. cbn [m_next_segments]. destruct (imap_remove s idx) as [[[enc nv] s']|] eqn:R.
  - apply imap_remove_size in R as [R _]. cbn [snd] in R. set (k := length nv) in *.
    apply (takes_more _ (1 + (25 * (S k * L) + (0 + 30 * (S (seg_size s') * L)))) _ _ (fun _ => True)); [|rewrite <- R; assert (1 <= S k * L) by (assert (1 * 1 <= S k * L) by (apply Nat.mul_le_mono; lia); lia); replace (S (seg_size s' + S k) * L) with (S (seg_size s') * L + S k * L) by lia; lia|trivial].
    eapply takes_bind; [apply (takes_step _ _ _ _ (fun _ => True)); auto|]. intros _ _. eapply takes_bind with (P := fun _ => True).
    + assert (X : k <= S k * L) by nia. assert (Y : S k * S k <= S k * L) by (apply mono; lia). assert (Y2 : L <= S k * L) by nia. assert (Pl : takes (25 * (S k * L)) (t_step (2 * k) (Ok (value ++ nv))) (fun _ => True)) by (apply takes_step; [lia|trivial]).
      destruct enc; [|exact Pl]. destruct cs as [c|]; [|exact Pl]. apply (takes_more _ ((k + length c) + (12 * (S k * S k) + 8 * k)) _ _ (fun _ => True)); [|blia|trivial].
      eapply takes_bind; [apply (takes_step _ _ _ _ (fun _ => True)); auto|]. intros _ _. eapply takes_bind; [apply takes_parameter; exact HE|]. intros d D. apply takes_step; [cbv beta in D; fold k in D; blia|trivial].
    + intros v _. eapply takes_bind; [apply (takes_step _ _ _ _ (fun _ => True)); auto|]. intros idx' _. apply IH; [exact HE|blia|exact HC].
  - eapply takes_more; [eapply takes_bind; [apply (takes_step _ 1 _ _ (fun _ => True)); auto|]; intros _ _; apply (takes_ok _ 0 _ (fun _ => True)); exact I| |trivial]. assert (1 * 1 <= S (seg_size s) * L) by (apply Nat.mul_le_mono; lia). lia.
Qed.
Lemma takes_join : forall E s L, sized_env E -> seg_size s < L -> takes (60 * (S (seg_size s) * L)) (m_join_segments E s) (fun _ => True).
Proof.
  intros E s L HE HL. unfold m_join_segments. destruct (imap_remove s 0) as [[[enc v] s']|] eqn:R.
  - apply imap_remove_size in R as [R _]. cbn [snd] in R. apply (takes_more _ (1 + (20 * (S (length v) * L) + (4 * length v + (30 * (S (seg_size s') * L) + 0)))) _ _ (fun _ => True)); [| |trivial].
    + eapply takes_bind; [apply (takes_step _ _ _ _ (fun _ => True)); auto|]. intros _ _. eapply takes_bind; [apply takes_first; [exact HE|blia]|]. intros [r cs] [R1 R2]. eapply takes_bind; [apply (takes_step _ _ _ _ (fun _ => True)); [exact R1|auto]|]. intros _ _.
      eapply takes_bind; [apply takes_next; [exact HE|blia|destruct cs; [blia|exact I]]|]. intros x _. apply takes_ok. exact I.
    + rewrite <- R. assert (length v <= S (length v) * L) by nia. assert (1 * 1 <= S (length v) * L) by (apply Nat.mul_le_mono; lia). replace (S (seg_size s' + S (length v)) * L) with (S (seg_size s') * L + S (length v) * L) by lia. blia.
  - eapply takes_more; [eapply takes_bind; [apply (takes_step _ 1 _ _ (fun _ => True)); auto|]; intros _ _; apply (takes_ok _ 0 _ (fun _ => True)); exact I| |trivial]. assert (1 * 1 <= S (seg_size s) * L) by (apply Nat.mul_le_mono; lia). lia.
Qed.
Definition name_size (cx : list (bytes * segs)) (n : bytes) : nat := S (length n) + match map_get cx n with Some s => seg_size s | None => 0 end.
Lemma takes_join_all : forall E cx L names ps, sized_env E -> (forall n s, map_get cx n = Some s -> seg_size s < L) -> 1 <= L ->
  takes (70 * (list_sum (map (name_size cx) names) * L) + 1) (m_join_all E names cx ps) (fun _ => True).
Proof.
  intros E cx L names. induction names as [|n names IH]; intros ps HE HL L1; [apply takes_step; [cbn; lia|trivial]|]. cbn [m_join_all map list_sum fold_right]. change (fold_right Nat.add 0 (map (name_size cx) names)) with (list_sum (map (name_size cx) names)).
  assert (X : S (length n) <= S (length n) * L) by nia. rewrite Nat.mul_add_distr_r. unfold name_size at 1. destruct (map_get cx n) as [s|] eqn:M.
  - apply (takes_more _ ((2 + 2 * length n) + (60 * (S (seg_size s) * L) + (70 * (list_sum (map (name_size cx) names) * L) + 1))) _ _ (fun _ => True)); [|blia|trivial].
    eapply takes_bind; [apply (takes_step _ _ _ _ (fun _ => True)); auto|]. intros _ _. eapply takes_bind; [apply takes_join; [exact HE|exact (HL _ _ M)]|]. intros v _. apply IH; assumption.
  - apply (takes_more _ ((2 + 2 * length n) + (70 * (list_sum (map (name_size cx) names) * L) + 1)) _ _ (fun _ => True)); [|blia|trivial].
    eapply takes_bind; [apply (takes_step _ _ _ _ (fun _ => True)); auto|]. intros _ _. apply IH; assumption.
Qed.
Lemma list_sum_perm : forall l l', Permutation l l' -> list_sum l = list_sum l'.
Proof. induction 1; cbn in *; unfold list_sum in *; lia. Qed.
Lemma name_sizes : forall cx, NoDup (map fst cx) -> list_sum (map (name_size cx) (map fst cx)) = cx_size cx.
Proof.
  intros cx ND. rewrite map_map. unfold cx_size. f_equal. apply map_ext_in. intros [n s] H. unfold name_size. cbn [fst snd]. f_equal.
  enough (map_get cx n = Some s) as -> by reflexivity. induction cx as [|[n' s'] cx IH]; [contradiction|]. cbn [map fst] in ND. apply NoDup_cons_iff in ND as [N ND]. cbn [map_get]. destruct H as [H|H].
  - injection H as -> ->. now rewrite PercentProofs.bytes_eqb_refl.
  - destruct (bytes_eqb n n') eqn:Q; [|exact (IH ND H)]. apply PercentProofs.bytes_eqb_eq in Q. subst n'. exfalso. apply N. apply in_map_iff. exists (n, s). auto.
Qed.
Lemma map_get_size : forall cx n s, map_get cx n = Some s -> seg_size s < S (cx_size cx).
Proof.
  induction cx as [|[n' s'] cx IH]; intros n s H; [discriminate|]. cbn [map_get] in H. rewrite cx_cons. cbn [fst snd]. destruct (bytes_eqb n n'); [injection H as ->; lia|]. apply IH in H. lia.
Qed.
Theorem collect_cost : forall E l, env_ok E -> sized_env E -> takes (80 * (S (params_size l) * S (params_size l))) (m_collect_parameters E l) (fun _ => True).
Proof.
  intros E l HO HE. unfold m_collect_parameters. set (T := params_size l). apply (takes_more _ ((5 * T + 1) + (70 * (T * S T) + 1)) _ _ (fun _ => True)); [|nia|trivial].
  eapply takes_bind; [apply split_cost|]. intros [pl cx] [H1 H2]. change (cx_size []) with 0 in H1. fold T in H1. specialize (H2 (NoDup_nil _)).
  assert (Q : list_sum (map (name_size cx) (hash_order E (map fst cx))) <= T).
  { rewrite (list_sum_perm _ (map (name_size cx) (map fst cx))); [rewrite name_sizes by exact H2; lia|]. apply Permutation_map, (ok_hash E HO). }
  eapply takes_more; [apply (takes_join_all E cx (S T)); [exact HE| |lia]| |trivial].
  - intros n s M. apply map_get_size in M. lia.
  - assert (list_sum (map (name_size cx) (hash_order E (map fst cx))) * S T <= T * S T) by (apply Nat.mul_le_mono_r; exact Q). lia.
Qed.
(* ---- what a value is made of has been read ---- *)
Definition fits {A} (size : A -> nat) (i : bytes) (x : timed (bytes * A)) : Prop := forall r a, fst x = Ok (r, a) -> size a + length r <= length i.
Lemma bound_ok : forall A B (a : A) n (k : A -> timed B), fst (t_bind (Ok a, n) k) = fst (k a).
Proof. intros. cbn. now destruct (k a). Qed.
Lemma fits_bind : forall A B (s1 : A -> nat) (s2 : B -> nat) i (x : timed (bytes * A)) k, fits s1 i x -> (forall r a, s1 a + length r <= length i -> fits s2 i (k (r, a))) -> fits s2 i (t_bind x k).
Proof.
  intros A B s1 s2 i [[[r a]|e|c] n] k H K; intros r' b Q; [|discriminate Q..]. apply (K r a (H r a eq_refl)). exact (eq_trans (eq_sym (bound_ok _ _ _ n k)) Q).
Qed.
Lemma fits_map : forall A B (s1 : A -> nat) (s2 : B -> nat) i (f : A -> B) (p : timed_parser A), fits s1 i (p i) -> (forall a, s2 (f a) <= s1 a) -> fits s2 i (t_pmap f p i).
Proof. intros A B s1 s2 i f p H L. unfold t_pmap. eapply fits_bind; [exact H|]. intros r a Q r' b X. cbn in X. injection X as <- <-. specialize (L a). blia. Qed.
Lemma fits_ok : forall A (size : A -> nat) i r a, size a + length r <= length i -> fits size i (t_ok (r, a)).
Proof. intros A size i r a H r' b Q. cbn in Q. assert (r' = r /\ b = a) as [-> ->] by (split; congruence). exact H. Qed.
Lemma fits_spec : forall A (size : A -> nat) i G B (x : timed (bytes * A)), spec G B x -> (forall r a n, G r a n -> size a + length r <= length i) -> fits size i x.
Proof. intros A size i G B [[[r a]|e|c] n] H L r' b Q; cbn in *; [|discriminate..]. injection Q as <- <-. exact (L _ _ _ H). Qed.
Lemma fits_optional : forall A (size : A -> nat) i (p : timed_parser A), fits size i (p i) -> fits (fun o => match o with Some a => size a | None => 0 end) i (t_optional p i).
Proof.
  intros A size i p H. unfold t_optional, t_attempt. destruct (p i) as [[[r a]|e|c] n] eqn:X; intros r' b Q; cbn in Q; [injection Q as <- <-; exact (H r a eq_refl)|injection Q as <- <-; lia|discriminate].
Qed.
Lemma fits_match : forall A (size : A -> nat) i (p : timed_parser A) ps, fits size i (p i) -> fits size i (t_match_parsers ps i) -> fits size i (t_match_parsers (p :: ps) i).
Proof.
  intros A size i p ps H1 H2. cbn [t_match_parsers]. unfold t_attempt. destruct (p i) as [[[r a]|e|c] n] eqn:X; intros r' b Q; cbn in Q; [injection Q as <- <-; exact (H1 r a eq_refl)| |discriminate].
  apply (H2 r' b). destruct (t_match_parsers ps i). exact Q.
Qed.
Lemma fits_nil : forall A (size : A -> nat) i, fits size i (t_match_parsers [] i).
Proof. intros A size i r a Q. discriminate Q. Qed.
Lemma fits_many : forall A (size : A -> nat) (p : timed_parser A), (forall i, fits size i (p i)) -> forall n i, fits (fun l => list_sum (map size l)) i (t_many_fuel n p i).
Proof.
  intros A size p H. induction n as [|n IH]; intros i; [intros r a Q; discriminate Q|]. cbn [t_many_fuel]. unfold t_attempt. destruct (p i) as [[[r a]|e|c] m] eqn:X; intros r' b Q; [|cbn in Q; injection Q as <- <-; cbn; lia|discriminate Q].
  pose proof (H i r a) as F. rewrite X in F. specialize (F eq_refl). specialize (IH r). unfold t_bind, t_step, t_ok in Q. destruct (t_many_fuel n p r) as [[[r1 l]|e|c] k] eqn:Y; cbn [fst snd] in Q; [|discriminate Q..]. injection Q as <- <-. specialize (IH r1 l eq_refl). cbn [map list_sum fold_right] in *. unfold list_sum in *. blia.
Qed.
Lemma fits_cfws : forall i, fits (fun _ => 0) i (t_optional t_cfws i).
Proof. intros i. eapply fits_spec; [apply s_optional_cfws|]. cbn beta. intros r a n ((H & _) & _). ah. Qed.
Lemma fits_tag : forall c m i, fits (fun _ => 1) i (t_tag [c] m i).
Proof. intros c m i. eapply fits_spec; [apply s_tag|]. cbn beta. intros r a n [-> _]. cbn. blia. Qed.
Lemma plain_token : plain is_token_char.
Proof. intros c H. unfold is_token_char in H. blia. Qed.
Lemma fits_take1 : forall f i, plain f -> fits (fun a => length a) i (t_take_while1 f i).
Proof. intros f i H. eapply fits_spec; [apply s_take_while1, H|]. cbn beta. intros r a n (_ & _ & Q & _). blia. Qed.
Lemma fits_value : forall i, fits (fun a => length a) i (t_match_parsers [m_token; t_quoted_string] i).
Proof.
  intros i. apply fits_match; [apply fits_take1, plain_token|apply fits_match; [|apply fits_nil]]. eapply fits_spec; [apply s_quoted_string|]. cbn beta. intros r a n (_ & _ & Q). exact Q.
Qed.
Lemma plain_name : plain (fun c => is_token_char c && negb (c =? 42)%N).
Proof. intros c H. apply andb_true_iff in H as [H _]. exact (plain_token c H). Qed.
Lemma fits_post : forall A K (size : A -> nat) (x : timed (bytes * A)) y i P, fst x = y -> Post.post K y i P -> (forall c a, P c a -> size a <= length c) -> fits size i x.
Proof. intros A K size x y i P X H L r a Q. rewrite X in Q. subst y. rewrite Q in H. destruct H as (c & -> & H). apply L in H. rewrite app_length. blia. Qed.
Lemma fold_length : forall a, length (map fold_case a) = length a.
Proof. intros. apply map_length. Qed.
Lemma fws_length : forall w v, rfc_oFWS w v -> length v <= length w.
Proof. intros w v [|c x [t Ht|w1 w2 H1 H2]]; rewrite ?app_length; cbn; lia. Qed.
Lemma qbody_length : forall b v, rfc_qbody b v -> length v <= length b.
Proof. induction 1 as [w v H|w v t c b x H Hc Hb IH]; [exact (fws_length _ _ H)|]. apply fws_length in H. rewrite !app_length. assert (1 <= length t) by (destruct Hc as [? ?|? ? []]; cbn; lia). cbn [length]. blia. Qed.
Lemma value_length : forall c v, rfc_param_value c v -> length v <= length c.
Proof. intros c v [c' H|c' v' H]; [lia|]. destruct H as [l b x r _ H _]. apply qbody_length in H. rewrite !app_length. cbn. blia. Qed.
Lemma name_length : forall c a i e, rfc_param_name c (a, i, e) -> length a <= length c.
Proof. intros c a i e H. inversion H; subst; rewrite ?app_length, fold_length; blia. Qed.
Lemma param_length : forall c p, rfc_param c p -> param_size p <= length c.
Proof. intros c p [w w' n a i e c' v _ _ H1 H2]. apply name_length in H1. apply value_length in H2. unfold param_size. rewrite !app_length. cbn [bs length]. change (length (bs ";")) with 1. change (length (bs "=")) with 1. blia. Qed.
Lemma fits_parameter : forall i, fits param_size i (m_parameter i).
Proof. intros i. eapply (fits_post _ (fun _ => True)); [apply o_parameter|apply sound_parameter|exact param_length]. Qed.
Definition item_size (d : disposition_item) : nat := match d with DParam p => param_size p | _ => 1 end.
Lemma item_length : forall c d, rfc_disposition_item c d -> item_size d <= length c.
Proof. intros c d H. destruct H as [| | | |c p H]; [..|exact (param_length _ _ H)]; cbn [item_size]; rewrite !app_length; change (length (bs ";")) with 1; lia. Qed.
Lemma fits_item : forall E i, fits item_size i (m_disposition_item E i).
Proof. intros E i. eapply (fits_post _ (fun _ => True)); [apply o_item|apply sound_disposition_item|exact item_length]. Qed.
Lemma items_size : forall l, params_size (item_params l) <= list_sum (map item_size l).
Proof. induction l as [|d l IH]; [reflexivity|]. unfold params_size, item_params in *. cbn [flat_map map list_sum fold_right] in *. destruct d; cbn [app map fold_right list_sum item_size] in *; unfold list_sum in *; lia. Qed.

(* ---- the values of the mime headers ---- *)
Lemma upto_comment : forall i, upto 40 2 i (t_comment i).
Proof. intros i. eapply spec_weak; [apply s_comment| |]; cbn beta; [intros r a n (H1 & H2 & H3 & _); split; [exact H1|lia]|intros n [[-> _]|[_ H]]; lia]. Qed.
Lemma upto_inline : forall i, upto 200 200 i (m_ignore_inline_cfws i).
Proof.
  intros i. unfold m_ignore_inline_cfws. eapply upto_weak; [eapply upto_bind; [apply upto_take, wsp_plain|]; intros r a; eapply upto_bind; [apply upto_optional, upto_comment|]; intros r' a'; eapply upto_bind; [apply upto_take, wsp_plain|]; intros; apply upto_ok|lia|lia].
Qed.
Lemma upto_token : forall i, upto 1 1 i (m_token i).
Proof. intros i. apply upto_take1, plain_token. Qed.
Lemma upto_lower : forall i, upto 2 2 i (m_lower_token i).
Proof.
  intros i. unfold m_lower_token, m_token. eapply spec_bind; [apply s_take_while1, plain_token|cbn beta; intros; lia|]. cbn beta. intros r a n (H1 & H2 & H3 & H4 & -> & _). split; [exact H1|ah].
Qed.
Lemma upto_number : forall i, upto 2 3 i (m_u8_number i).
Proof.
  assert (L : forall n k i, upto 2 2 i (m_u8_number_loop n k i)).
  { induction n as [|n IH]; intros k i; [exact I|]. cbn [m_u8_number_loop]. destruct i as [|c i]; [unfold t_digit, digit, t_step; cbn; split; [apply ahead_refl|lia]|]. unfold t_digit, digit, t_step at 1. destruct (is_digit c) eqn:D; [|cbn; split; [apply ahead_refl|lia]].
    assert (C : (c <> 13)%N) by (unfold is_digit in D; lia). pose proof (ahead_cons c i C) as A. assert (R : reach (c :: i) = S (reach i)) by (unfold ahead in A; cbn [length] in A; blia). destruct (u8_checked_mul k 10) as [x|]; cbn [ok_or t_step t_attempt t_bind]; [|cbn; lia]. destruct (u8_checked_add x (c - 48)%N) as [y|] eqn:Y; cbv beta iota zeta delta [t_attempt t_bind t_step ok_or]; rewrite ?Y; cbv beta iota zeta delta [t_attempt t_bind t_step ok_or]; [|unfold upto, spec; cbv beta iota delta [fst snd]; lia].
    specialize (IH y i). destruct (m_u8_number_loop n y i) as [[[r a]|e|z] m]; unfold upto, spec in IH |- *; cbv beta iota delta [fst snd]; [|rewrite R; lia|exact I]. destruct IH as [H1 H2]. split; [unfold ahead in *; rewrite R; cbn [length]; blia|rewrite R; lia]. }
  intros i. unfold m_u8_number. eapply upto_weak; [eapply upto_bind; [apply upto_digit|]; intros; apply L|lia|lia].
Qed.
Ltac nx := first [apply upto_ok|eapply upto_bind; [|intros ? ?]].
Lemma upto_tag1 : forall c m i, (c <> 13)%N -> upto 0 2 i (t_tag [c] m i).
Proof. exact upto_char. Qed.
Lemma upto_nocase : forall E e1 e2 m i, nocase_pair e1 e2 = true -> name_ok e1 = true -> upto 0 (S (length e1 + length e2)) i (t_tag_no_case E e1 e2 m i).
Proof. intros E e1 e2 m i H1 H2. eapply spec_weak; [exact (proj1 (s_name E e1 e2 m i H1 H2))| |]; cbn beta; [intros r a n [A ->]; split; [exact A|lia]|intros n ->; lia]. Qed.
Lemma upto_version : forall i, upto 500 500 i (m_version_value i).
Proof.
  intros i. unfold m_version_value. eapply upto_weak; [nx; [apply upto_optional, upto_cfws|]; nx; [apply upto_number|]; nx; [apply (upto_tag1 46); discriminate|]; nx; [apply upto_number|]; nx; [apply upto_inline|]; nx|lia|lia].
Qed.
Lemma upto_value : forall i, upto 200 200 i (t_match_parsers [m_token; t_quoted_string] i).
Proof. intros i. eapply upto_weak; [eapply upto_match; [apply upto_token|eapply upto_match; [apply upto_qs|apply upto_match_nil]]|lia|lia]. Qed.
Lemma upto_indexed : forall i, upto 10 10 i (m_indexed_name i).
Proof.
  intros i. unfold m_indexed_name. eapply spec_bind; [apply s_take_while1, plain_name|cbn beta; intros; lia|]. cbn beta. intros r a n (H1 & H2 & H3 & H4 & -> & _).
  assert (O : spec (fun r' o m => ahead r r' /\ match o with Some (_, x) => length x | None => 0 end <= reach r /\ m <= reach r + 4) (fun _ => False) (t_optional (t_pair_p (t_tag (bs "*") "TAG ERROR: An indexed MIME parameter name must contain a `*`.") (t_take_while1 is_digit)) r)).
  { unfold t_optional, t_pair_p. eapply spec_attempt with (G := fun r' '(_, x) m => ahead r r' /\ length x <= reach r /\ m <= reach r + 4) (B := fun m => m <= 4); [|cbn beta; intros r' [u x] m (A1 & A2 & A3); split; [exact A1|split; [exact A2|lia]]|cbn beta; intros m M; split; [apply ahead_refl|split; [lia|lia]]].
    eapply spec_bind; [apply (s_char 42); discriminate|cbn beta; intros; lia|]. cbn beta. intros r1 [] n (_ & A1 & A2 & ->). eapply spec_bind; [apply s_take_while1; intros c Hc; unfold is_digit in Hc; lia|cbn beta; intros; lia|]. cbn beta. intros r2 x n (B1 & _ & B3 & _ & -> & _). split; [ah|split; ah]. }
  eapply spec_bind; [exact O|intros m []|]. cbn beta. intros r1 o m (A1 & A2 & A3).
  assert (P : forall ix, upto 0 2 r1 (let+ (j, encoded) := t_step 1 match r1 with c :: _ => if (c =? 42)%N then let* r := index_from r1 1 in Ok (r, true) else Ok (r1, false) | [] => Ok (r1, false) end in
    t_step 1 match j with c :: _ => if (c =? 61)%N then Ok (j, (a, ix, encoded)) else Err (Unknown "It wont work with this method") | [] => Err (Unknown "It wont work with this method") end : timed (bytes * (bytes * option N * bool)))).
  { intros ix. eapply upto_weak with (K := 0 + 0) (k := 1 + 1); [eapply upto_bind| |]; [| |lia|lia].
    - destruct r1 as [|c r1]; [split; [apply ahead_refl|lia]|]. destruct (c =? 42)%N eqn:Q; [|split; [apply ahead_refl|lia]]. change (index_from (c :: r1) 1) with (Ok r1). split; [apply ahead_cons; lia|lia].
    - intros j e. destruct j as [|c j]; [cbn; lia|]. destruct (c =? 61)%N; [|cbn; lia]. split; [apply ahead_refl|lia]. }
  assert (Q : forall ix k, k <= reach r -> spec (fun r' b q => ahead i r' /\ S (length a) + (m + (k + q)) <= 10 * reach i + 10) (fun q => S (length a) + (m + (k + q)) <= 10 * reach i + 10) (let+ (j, encoded) := t_step 1 match r1 with c :: _ => if (c =? 42)%N then let* r := index_from r1 1 in Ok (r, true) else Ok (r1, false) | [] => Ok (r1, false) end in
    t_step 1 match j with c :: _ => if (c =? 61)%N then Ok (j, (a, ix, encoded)) else Err (Unknown "It wont work with this method") | [] => Err (Unknown "It wont work with this method") end : timed (bytes * (bytes * option N * bool)))).
  { intros ix k K. eapply spec_weak; [apply P| |]; cbn beta; [intros r2 b q [B1 B2]; split; [ah|ah]|intros q B; ah]. }
  destruct o as [[u x]|].
  - destruct (parse_below 256 x) as [v|]; cbn [ok_or]; [|cbn; ah]. eapply spec_known; [reflexivity|]. apply (Q (Some v)). cbn. blia.
  - eapply spec_known; [reflexivity|]. apply (Q None 0). lia.
Qed.
Lemma upto_name : forall i, upto 20 20 i (t_match_parsers [m_indexed_name; t_pmap (fun name => (name, None, false)) m_token] i).
Proof. intros i. eapply upto_weak; [eapply upto_match; [apply upto_indexed|eapply upto_match; [apply upto_pmap, upto_token|apply upto_match_nil]]|lia|lia]. Qed.
Lemma spec_fits : forall A (size : A -> nat) i x, fits size i x -> spec (fun r a _ => size a + length r <= length i) (fun _ => True) x.
Proof. intros A size i [[[r a]|e|c] n] H; cbn; [exact (H r a eq_refl)|exact I..]. Qed.
Lemma fits_name : forall i, fits (fun '(n, _, _) => length n) i (t_match_parsers [m_indexed_name; t_pmap (fun name => (name, None, false)) m_token] i).
Proof.
  intros i. apply fits_match; [|apply fits_match; [|apply fits_nil]].
  - eapply (fits_post _ (fun _ => True)); [apply o_indexed|apply sound_indexed_name|]. cbn beta. intros c [[n ix] e] (a & <- & H). cbn [fst snd] in H. apply name_length in H. rewrite fold_length in H. exact H.
  - eapply fits_map; [apply fits_take1, plain_token|]. intros a. cbn. lia.
Qed.
Lemma upto_named : forall i, upto 300 300 i (
  let+ (i, (name, index, encoded)) :=
    t_match_parsers [ m_indexed_name; t_pmap (fun name => (name, None, false)) m_token ] i in
  let+ name := t_step (length name) (Ok (lowercase name)) in
  let+ (i, _) := t_tag (bs "=") "TAG ERROR: A MIME parameter name must be followed by a `=`." i in
  let+ (i, value) := t_match_parsers [ m_token; t_quoted_string ] i in
  t_ok (i, (name, index, encoded, value))).
Proof.
  intros i. eapply spec_bind; [eapply spec_and; [apply upto_name|apply spec_fits, fits_name]|cbn beta; intros n [H _]; lia|]. cbn beta. intros r [[n ix] e] k ((H1 & H2) & H3). eapply spec_known; [reflexivity|].
  eapply spec_weak; [eapply (upto_weak _ _ _ 250 250); [nx; [apply (upto_tag1 61); discriminate|]; nx; [apply upto_value|]; nx|lia|lia]| |]; cbn beta; [intros r' b q [A B]; split; [ah|ah]|intros q B; ah].
Qed.
Lemma upto_parameter : forall i, upto 1000 1000 i (m_parameter i).
Proof.
  intros i. unfold m_parameter. eapply upto_weak; [nx; [apply upto_optional, upto_cfws|]; nx; [apply (upto_tag1 59); discriminate|]; nx; [apply upto_optional, upto_cfws|]; apply upto_named|lia|lia].
Qed.
Lemma upto_date_parameter : forall E n u i, nocase_pair n u = true -> name_ok n = true -> upto 1000 (1000 + 2 * length n) i (m_date_parameter E n u i).
Proof.
  intros E n u i H1 H2. assert (L : length u = length n) by (unfold nocase_pair in H1; apply PercentProofs.bytes_eqb_eq in H1; subst u; apply map_length). unfold m_date_parameter. eapply upto_weak; [nx; [apply upto_optional, upto_cfws|]; nx; [apply (upto_tag1 59); discriminate|]; nx; [apply upto_optional, upto_cfws|]; nx; [apply upto_nocase; assumption|]; eapply (upto_bind _ _ 0 4)|..].
  - eapply spec_weak; [apply s_tag| |]; cbn beta; [intros r' [] q [-> ->]; split; [apply (ahead_app [61%N; DQUOTE]); repeat constructor; discriminate|cbn; lia]|intros q [-> _]; cbn; lia].
  - intros r' []. nx; [apply upto_date_time|]. nx; [apply upto_tag1; discriminate|]. nx.
  - lia.
  - blia.
Qed.
Lemma upto_filename : forall E i, upto 500 500 i (m_filename_parameter E i).
Proof.
  intros E i. unfold m_filename_parameter. eapply upto_weak; [nx; [apply upto_optional, upto_cfws|]; nx; [apply (upto_tag1 59); discriminate|]; nx; [apply upto_optional, upto_cfws|]; nx; [apply upto_nocase; reflexivity|]; nx; [apply (upto_tag1 61); discriminate|]; apply upto_value|lia|cbn; lia].
Qed.
Lemma upto_item : exists K k, forall E i, upto K k i (m_disposition_item E i).
Proof.
  do 2 eexists. intros E i. unfold m_disposition_item. repeat (eapply upto_match; [apply upto_pmap; first [apply upto_filename|apply upto_date_parameter; reflexivity|apply upto_parameter]|]). apply upto_match_nil.
Qed.
Lemma upto_kind : exists K k, forall E i, upto K k i (m_disposition_kind E i).
Proof. do 2 eexists. intros E i. unfold m_disposition_kind. repeat (eapply upto_match; [apply upto_pmap; first [apply upto_nocase; reflexivity|apply upto_lower]|]). apply upto_match_nil. Qed.
Lemma upto_mime_type : exists K k, forall E i, upto K k i (m_mime_type E i).
Proof. do 2 eexists. intros E i. unfold m_mime_type. repeat (eapply upto_match; [apply upto_pmap; first [apply upto_nocase; reflexivity|apply upto_lower]|]). apply upto_match_nil. Qed.
Lemma upto_encoding_name : exists K k, forall E i, upto K k i (m_encoding_name E i).
Proof. do 2 eexists. intros E i. unfold m_encoding_name. repeat (eapply upto_match; [apply upto_pmap; first [apply upto_nocase; reflexivity|apply upto_lower]|]). apply upto_match_nil. Qed.
Lemma upto_encoding : exists K k, forall E i, upto K k i (m_encoding_value E i).
Proof.
  destruct upto_encoding_name as (K & k & H). do 2 eexists. intros E i. unfold m_encoding_value. nx; [apply upto_optional, upto_cfws|]. nx; [apply H|]. nx; [apply upto_inline|]. nx.
Qed.
(* the parameters of a header, parsed and then joined *)
Lemma win_params : forall A B E (p : timed_parser A) size (g : list A -> list param) (k : bytes -> list A -> list (bytes * bytes) -> timed (bytes * B)) K c i, env_ok E -> sized_env E ->
  (forall i, upto K K i (p i)) -> (forall i, fits size i (p i)) -> (forall a, 1 <= size a) -> (forall l, params_size (g l) <= list_sum (map size l)) ->
  (forall r l ps, spec (fun r' _ n => ahead r r' /\ n <= c * w2 (reach r) + S (length l)) (fun n => n <= c * w2 (reach r) + S (length l)) (k r l ps)) ->
  win w2 (2 * (2 * K) + 2 + 80 + c + 1) i (let+ (r, l) := t_many p i in let+ ps := m_collect_parameters E (g l) in k r l ps).
Proof.
  intros A B E p size g k K c i HO HE Hp Hf H1 Hg Hk. pose proof (square_up (reach i)) as Q.
  assert (Hpay : forall j, pays w1 w2 (2 * K) j (p j)).
  { intros j. apply pays_win. pose proof (square_up (reach j)) as Qj. pose proof (mono K _ _ Qj) as QK. eapply spec_weak; [eapply spec_and; [apply Hp|apply spec_fits, Hf]| |]; cbn beta; unfold w1; [intros r a n ((A1 & A2) & A3); specialize (H1 a); split; [exact A1|]; split; [ah|lia]|intros n [N _]; lia]. }
  assert (Hm : win w2 (2 * (2 * K) + 2) i (t_many p i)) by (apply (win_many _ w1 w2 (2 * K) p i); auto).
  eapply spec_bind; [eapply spec_and; [exact Hm|apply spec_fits; exact (fits_many _ size p Hf _ i)]|cbn beta; intros n [N _]; lia|]. cbn beta. intros r l n ((A1 & A2) & A3). specialize (Hg l).
  assert (L : length l <= list_sum (map size l)) by (clear -H1; induction l as [|a l IH]; [cbn; lia|]; cbn [length map list_sum fold_right]; specialize (H1 a); unfold list_sum in IH; lia).
  destruct (collect_cost E (g l) HO HE) as [C _]. assert (T : params_size (g l) <= reach i) by ah. assert (W : S (params_size (g l)) * S (params_size (g l)) <= w2 (reach i)) by (unfold w2; apply Nat.mul_le_mono; lia).
  assert (R : w2 (reach r) <= w2 (reach i)) by (apply weighty2; ah). pose proof (mono c _ _ R) as Rc. assert (Ll : length l <= reach i) by ah. set (v := w2 (reach i)) in *. set (z := w2 (reach r)) in *. clearbody v. destruct (m_collect_parameters E (g l)) as [[ps|e|x] m]; cbn [snd] in C; [|cbn; lia|exact I].
  eapply spec_known; [reflexivity|]. eapply spec_weak; [apply Hk| |]; cbn beta; fold z; [intros r' b q [B1 B2]; split; [ah|lia]|intros q B2; lia].
Qed.
Definition cost_env (E : env) : Prop := env_ok E /\ sized_env E.
Definition kept {A} (w : nat -> nat) (p : env -> timed_parser A) : Prop := exists c, forall E i, cost_env E -> win w c i (p E i).
Lemma kept_within : forall A w (p : env -> timed_parser A), within w p -> kept w p.
Proof. intros A w p [c H]. exists c. intros E i [_ HE]. now apply H. Qed.
Lemma kept_upto : forall A w (p : env -> timed_parser A), weighty w -> linear p -> kept w p.
Proof. intros A w p W (K & k & H). exists (K + k). intros E i _. apply win_upto; [exact W|apply H]. Qed.
Lemma kept_up : forall A (p : env -> timed_parser A), kept w2 p -> kept w3 p.
Proof. intros A p [c H]. exists c. intros E i HE. eapply win_up; [apply H; exact HE|exact square_cube]. Qed.
Lemma win_content_type : kept w2 m_content_type_value.
Proof.
  destruct upto_mime_type as (K & k & HT). eexists. intros E i [HO HE]. unfold m_content_type_value. eapply win_bind; [auto|eapply win_upto; [auto|apply upto_optional, upto_cfws]|]. intros r1 o1. cbn beta iota. eapply win_bind; [auto|eapply win_upto; [auto|apply HT]|]. intros r2 t. cbn beta iota.
  eapply win_bind; [auto|eapply win_upto; [auto|apply (upto_tag1 47); discriminate]|]. intros r3 u3. cbn beta iota. eapply win_bind; [auto|eapply win_upto; [auto|apply upto_lower]|]. intros r4 s. cbn beta iota.
  refine (win_params _ _ E m_parameter param_size (fun l => l) (fun r l ps => let+ (i, _) := m_ignore_inline_cfws r in t_ok (i, (t, s, ps))) 1000 400 r4 HO HE upto_parameter fits_parameter _ (fun l => le_n _) _).
  - intros [[[n x] e] v]. cbn. lia.
  - intros r l ps. pose proof (square_up (reach r)). eapply spec_weak; [apply (upto_weak _ (200 + 0) (200 + 0) 200 200); [eapply upto_bind; [apply upto_inline|intros; apply upto_ok]|lia|lia]| |]; cbn beta; [intros r' a n [A1 A2]; split; [exact A1|lia]|intros; lia].
Qed.
Lemma win_disposition : kept w2 m_disposition_value.
Proof.
  destruct upto_kind as (K & k & HT). destruct upto_item as (K1 & k1 & HI). eexists. intros E i [HO HE]. unfold m_disposition_value. eapply win_bind; [auto|eapply win_upto; [auto|apply upto_optional, upto_cfws]|]. intros r1 o1. cbn beta iota. eapply win_bind; [auto|eapply win_upto; [auto|apply HT]|]. intros r2 t. cbn beta iota.
  refine (win_params _ _ E (m_disposition_item E) item_size item_params (fun r items params => let+ (i, _) := m_ignore_inline_cfws r in t_step (S (length items)) (Ok (i, fold_left set_item items
           {| disposition_type := t; disp_filename := None; disp_creation_date := None;
              disp_modification_date := None; disp_read_date := None; disp_unstructured := params |}))) (K1 + k1) 400 r2 HO HE _ (fits_item E) _ items_size _).
  - intros j. eapply upto_weak; [apply HI|lia|lia].
  - intros []; cbn [item_size]; try lia. destruct p as [[[n x] e] v]. cbn. lia.
  - intros r l ps. pose proof (square_up (reach r)). eapply spec_bind; [apply upto_inline|cbn beta; intros; lia|]. cbn beta. intros r' u n [A1 A2]. split; [exact A1|lia].
Qed.

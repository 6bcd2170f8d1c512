(* C64: the strings of an email are not longer than the text they come from. *)
From Verif Require Import Base Utf8 Time Address Percent MimeFields Fields Message Entity Email Combinators.
From Verif Require Import Rfc5322 Rfc2047 CodecSpec RfcFields EmailSpec MultipartSpec EntitySpec TextSpec SizeSpec Envs ParamProofs SoundMessage EntityProofs TextFacts.
From Verif Require Import QPProofs PercentProofs.
From Coq Require Import Lia Permutation.
Local Open Scope nat_scope.
Local Ltac lia := unfold bytes, byte in *; Lia.lia.
Local Ltac nia := unfold bytes, byte in *; Lia.nia.

Lemma volume_app : forall a b, volume (a ++ b) = volume a + volume b.
Proof. intros a b. unfold volume. rewrite map_app. apply list_sum_app. Qed.
Lemma volume_one : forall v, volume [v] = length v.
Proof. intros v. unfold volume. cbn [map list_sum fold_right]. apply Nat.add_0_r. Qed.

Definition total {A} (f : A -> nat) (l : list A) : nat := list_sum (map f l).
Lemma total_cons : forall A (f : A -> nat) x l, total f (x :: l) = f x + total f l.
Proof. reflexivity. Qed.
Lemma total_le : forall A (f g : A -> nat) l, (forall x, In x l -> f x <= g x) -> total f l <= total g l.
Proof. intros A f g l. induction l as [|x l IH]; intros H; [cbn; lia|]. rewrite !total_cons. pose proof (H x (or_introl eq_refl)). pose proof (IH (fun y Hy => H y (or_intror Hy))). lia. Qed.
Lemma total_sum : forall A (f g : A -> nat) l, total f l + total g l = total (fun x => f x + g x) l.
Proof. intros A f g l. induction l as [|x l IH]; [reflexivity|]. rewrite !total_cons. lia. Qed.
Lemma total_in : forall A (f : A -> nat) x l, In x l -> f x <= total f l.
Proof. intros A f x l. induction l as [|y l IH]; intros H; [easy|]. rewrite total_cons. destruct H as [->|H]; [lia|]. apply IH in H. lia. Qed.
Lemma many_total : forall A (P : bytes -> A -> Prop) (f : A -> nat) c l, (forall c a, P c a -> f a <= length c) -> many_of P c l -> total f l <= length c.
Proof. intros A P f c l H M. induction M as [|c a cs l Ha _ IH]; [cbn; lia|]. rewrite total_cons, app_length. apply H in Ha. lia. Qed.
Lemma total_const : forall A n (l : list A), total (fun _ => n) l = n * length l.
Proof. intros A n l. induction l as [|x l IH]; [cbn; lia|]. rewrite total_cons. cbn [length]. lia. Qed.
Lemma singles : forall (l : list bytes), concat (map (fun v => [v]) l) = l.
Proof. induction l; cbn; congruence. Qed.
Lemma nones : forall A B (l : list A), concat (map (fun _ => @nil B) l) = [].
Proof. induction l; cbn; congruence. Qed.
Lemma b64_len : forall n s l v, length l < n -> b64_groups s l = Some v -> length v <= length l + match s with G0 => 0 | G1 _ => 1 | G2 _ _ => 2 | G3 _ _ _ => 3 | G3Pad _ _ => 3 end.
Proof.
  induction n as [|n IH]; intros s l v Hn H; [lia|]. destruct l as [|x l]; cbn [b64_groups] in H; [destruct s; try discriminate; injection H as <-; cbn; lia|]. cbn [length] in *.
  destruct s, x; try discriminate; try (apply IH in H; [|lia]; lia); (destruct (b64_groups G0 l) as [u|] eqn:U; [|discriminate]; apply IH in U; [|lia]; cbn [option_map] in H; injection H as <-; cbn [app length]; lia).
Qed.
Lemma symbols_len : forall l, length (symbols l) <= length l.
Proof. induction l as [|c r IH]; cbn [symbols length]; [lia|]. destruct (b64_value c); [cbn [length]; lia|]. destruct (c =? 61)%N; cbn [length]; lia. Qed.
Lemma base64_len : forall l v, b64_decoding l = Some v -> length v <= length l.
Proof. intros l v H. apply (b64_len (S (length (symbols l)))) in H; [|lia]. pose proof (symbols_len l). lia. Qed.
Lemma q_len : forall n l, length l < n -> chars ew_text_char l -> length (q_decoding l) <= length l.
Proof.
  induction n as [|n IH]; intros l Hn H; [lia|]. destruct l as [|c r]; cbn [q_decoding]; [lia|]. cbn [length] in *. inversion H as [|? ? Hc Hr]; subst. destruct Hc as [Hc _].
  destruct (c =? 61)%N.
  - destruct r as [|a [|b r]]; [pose proof (IH [] ltac:(cbn [length] in *; lia) Hr) as I1; cbn [length] in *; lia|pose proof (IH [a] ltac:(cbn [length] in *; lia) Hr) as I1; cbn [length] in *; lia|]. inversion Hr as [|x1 x2 Ha Hr2]; subst. inversion Hr2 as [|x3 x4 Hb Hr3]; subst. cbn [length] in *. specialize (IH r ltac:(lia) Hr3).
    destruct ((a =? 13) && (b =? 10))%N; [lia|]. rewrite app_length. pose proof (escape_len a b). lia.
  - specialize (IH r ltac:(lia) Hr). destruct (c =? 95)%N; [cbn; lia|]. replace ((32 <=? c) && (c <=? 126))%N with true by (symmetry; apply andb_true_intro; split; apply N.leb_le; lia). cbn. lia.
Qed.
Lemma qp_len : forall n l, length l < n -> length (qp_decoding l) <= 3 * length l.
Proof.
  induction n as [|n IH]; intros l Hn; [lia|]. destruct l as [|c r]; cbn [qp_decoding]; [lia|]. cbn [length] in *. pose proof (IH r ltac:(lia)) as I1.
  destruct (c =? 61)%N.
  - destruct r as [|a [|b r]]; cbn [length] in *; try lia. pose proof (IH r ltac:(lia)). destruct ((a =? 13) && (b =? 10))%N; [lia|]. rewrite app_length. pose proof (escape_len a b). lia.
  - destruct (_ || _ || _); [cbn; lia|]. destruct r as [|d r]; [rewrite app_length; change (length REPLACEMENT) with 3; lia|]. cbn [length] in *. pose proof (IH r ltac:(lia)).
    destruct (_ && _); [cbn; lia|]. rewrite app_length. change (length REPLACEMENT) with 3. lia.
Qed.
Lemma rtl_len : forall l, length (rtl l) <= length l.
Proof.
  induction l as [|c r IH]; cbn; [lia|]. destruct (c =? 37)%N; [|cbn; lia]. unfold rtl_step. destruct (rtl r) as [|a [|b t]]; cbn in *; try lia. destruct (hex_value a); [destruct (hex_value b)|]; cbn; lia.
Qed.


Section Size.
Variable (k : nat) (Hk : 1 <= k).

(* texts and strings a, b come from the text c *)
Definition small (c : bytes) (a b : list bytes) : Prop := volume a + volume b <= k * length c /\ length a + length b <= length c.
Lemma small_more : forall c c' a b, small c a b -> length c <= length c' -> small c' a b.
Proof. intros c c' a b [H1 H2] H. split; [nia|lia]. Qed.
Lemma small_app : forall c c' a b a' b', small c a b -> small c' a' b' -> small (c ++ c') (a ++ a') (b ++ b').
Proof. intros c c' a b a' b' [H1 H2] [H3 H4]. unfold small. rewrite !volume_app, !app_length. split; [nia|lia]. Qed.
Lemma small_nil : forall c, small c [] [].
Proof. intros c. split; cbn; lia. Qed.
Lemma small_one : forall c v, length v <= k * length c -> 1 <= length c -> small c [v] [].
Proof. intros c v H H'. split; cbn; rewrite ?volume_one; unfold volume; cbn; lia. Qed.
Lemma small_str : forall c v, length v <= length c -> 1 <= length c -> small c [] [v].
Proof. intros c v H H'. split; unfold volume; cbn; nia. Qed.
Lemma small_many : forall A (P : bytes -> A -> Prop) f g c l, (forall c a, P c a -> small c (f a) (g a)) -> many_of P c l -> small c (concat (map f l)) (concat (map g l)).
Proof. intros A P f g c l H M. induction M; cbn; [apply small_nil|]. apply small_app; auto. Qed.
Lemma small_comma : forall A (P : bytes -> A -> Prop) f g c l, (forall c a, P c a -> small c (f a) (g a)) -> comma_list P c l -> small c (concat (map f l)) (concat (map g l)).
Proof.
  intros A P f g c l H M. induction M; cbn; [rewrite !app_nil_r; auto|]. eapply small_app; [auto|]. eapply small_more; [exact IHM|]. cbn. lia.
Qed.
Ltac len := rewrite ?app_length; cbn [length]; rewrite ?app_length; cbn [length]; lia.

(* ---- RFC 5322 ---- *)
Lemma fws_len : forall c v, rfc_oFWS c v -> length v <= length c.
Proof. intros c v [|c' v' []]; rewrite ?app_length; cbn; lia. Qed.
Lemma atom_len : forall c v, rfc_atom c v -> length v <= length c /\ 1 <= length v.
Proof. intros c v [l a r _ [Ha _] _]. destruct a; [easy|]. len. Qed.
Lemma pair_len : forall t c, rfc_quoted_pair t c -> length t = 2.
Proof. now intros t c []. Qed.
Lemma qcontent_len : forall t c, rfc_qcontent t c -> 1 <= length t.
Proof. intros t c []; cbn; [lia|]. erewrite pair_len; eauto. Qed.
Lemma qbody_len : forall b v, rfc_qbody b v -> length v <= length b.
Proof. intros b v H. induction H as [w v H|w v t c b x Hw Ht _ IH]; [now apply fws_len|]. apply fws_len in Hw. apply qcontent_len in Ht. len. Qed.
Lemma quoted_len : forall c v, rfc_quoted_string c v -> length v + 2 <= length c.
Proof. intros c v [l b v' r _ H _]. apply qbody_len in H. len. Qed.
Lemma word_len : forall c v, rfc_word c v -> length v <= length c /\ 1 <= length c.
Proof. intros c v [c' v' H|c' v' H]; [apply atom_len in H|apply quoted_len in H]; lia. Qed.
Lemma dot_tail_len : forall b (t : bytes), rfc_dot_atom_text b t -> 1 <= length t.
Proof. intros b t [a r [H _] _]. destruct a; [easy|]. len. Qed.
Lemma dot_atom_len : forall b c v, rfc_dot_atom b c v -> length v <= length c /\ 1 <= length v.
Proof. intros b c v [l a r _ H _]. apply dot_tail_len in H. len. Qed.
Lemma dbody_len : forall b v, rfc_dbody b v -> length v <= length b.
Proof. intros b v H. induction H as [w v H|w v c b x _ _ _ IH]; len. Qed.
Lemma literal_len : forall c v, rfc_domain_literal c v -> length v + 2 <= length c.
Proof. intros c v [l b v' r _ H _]. apply dbody_len in H. len. Qed.
Lemma domain_len : forall b c v, rfc_domain b c v -> length v <= length c /\ 1 <= length c.
Proof. intros b c v [c' v' H|c' v' H]; [apply dot_atom_len in H|apply literal_len in H]; lia. Qed.
Lemma local_len : forall b c v, rfc_local_part b c v -> length v <= length c /\ 1 <= length c.
Proof. intros b c v [c' v' H|c' v' H]; [apply dot_atom_len in H|apply quoted_len in H]; lia. Qed.
Lemma addr_small : forall b c a, rfc_addr_spec b c a -> small c [] (email_address_strings a).
Proof.
  intros b c a [c1 l c2 d H1 H2]. apply local_len in H1. apply domain_len in H2. unfold email_address_strings. cbn [a_local_part a_domain].
  apply (small_app c1 ([64%N] ++ c2) [] [l] [] [d]); apply small_str; try lia; len.
Qed.
Lemma angle_small : forall b c a, rfc_angle_addr b c a -> small c [] (email_address_strings a).
Proof. intros b c a [l c' a' r _ H _]. eapply small_more; [eapply addr_small; eauto|]. len. Qed.
Lemma id_right_len : forall b c v, rfc_id_right b c v -> length v <= length c /\ 1 <= length c.
Proof. intros b c v [a H|d H]; [apply dot_tail_len in H; lia|len]. Qed.
Lemma id_small : forall b c i, rfc_msg_id b c i -> small c [] (id_strings i).
Proof.
  intros b c i [l a c' x r _ H1 H2 _]. apply dot_tail_len in H1. apply id_right_len in H2. unfold id_strings. cbn [fst snd].
  apply (small_more (a ++ c')); [|len]. apply (small_app a c' [] [a] [] [x]); apply small_str; lia.
Qed.
Lemma utext_len : forall c v, rfc_unstructured c v -> length v <= length c.
Proof.
  intros c v [t v' w H _]. assert (L : length v' <= length t); [|len]. clear w. induction H as [|w0 u d t x Hw _ _ IH]; [lia|]. apply fws_len in Hw. len.
Qed.

Lemma header_small : forall A n (V : bytes -> A -> Prop) c v a b, rfc_header n V c v -> (forall c, V c v -> small c a b) -> small c a b.
Proof. intros A n V c v a b [n' c' v' _ H] S. eapply small_more; [apply S, H|]. len. Qed.
Section Phrases.
Variables (compat : bool) (EW : bytes -> bytes -> Prop) (HEW : forall c v, EW c v -> length v <= k * length c /\ 1 <= length c).
Lemma phrase_word_small : forall c v, rfc_phrase_word EW c v -> small c [v] [].
Proof. intros c v [c' v' H|w x c' v' _ H]; [apply word_len in H; apply small_one; nia|]. apply HEW in H. apply small_one; rewrite app_length; nia. Qed.
Lemma phrase_small : forall c l, rfc_phrase EW c l -> small c l [].
Proof. intros c l [_ H]. pose proof (small_many _ _ (fun v => [v]) (fun _ => []) _ _ phrase_word_small H) as S. now rewrite singles, nones in S. Qed.
Lemma mailbox_small : forall c m, rfc_mailbox compat EW c m -> small c (mailbox_texts m) (mailbox_strings m).
Proof.
  intros c m [c1 n c2 a H1 H2|c' a H|c' a H]; unfold mailbox_texts, mailbox_strings; cbn [m_name m_address].
  - apply phrase_small in H1. apply angle_small in H2. pose proof (small_app _ _ _ _ _ _ H1 H2) as S. now rewrite app_nil_r in S.
  - eapply angle_small; eauto.
  - eapply addr_small; eauto.
Qed.
Lemma mailboxes_small : forall c l, rfc_mailbox_list compat EW c l -> small c (concat (map mailbox_texts l)) (concat (map mailbox_strings l)).
Proof. intros c l H. eapply small_comma; [|exact H]. apply mailbox_small. Qed.
Lemma address_small : forall c a, rfc_address compat EW c a -> small c (address_texts a) (address_strings a).
Proof.
  intros c a [c' m H|c' g H]; [now apply mailbox_small|]. destruct H as [c1 n c2 l r H1 H2 _]. cbn [address_texts address_strings]. apply phrase_small in H1.
  assert (H3 : small c2 (concat (map mailbox_texts l)) (concat (map mailbox_strings l))) by (destruct H2; [now apply mailboxes_small|apply small_nil]).
  eapply small_more; [exact (small_app _ _ _ _ _ _ H1 H3)|]. len.
Qed.
Lemma addresses_small : forall c l, rfc_address_list compat EW c l -> small c (concat (map address_texts l)) (concat (map address_strings l)).
Proof. intros c l H. eapply small_comma; [|exact H]. apply address_small. Qed.
Lemma bcc_small : forall c l, rfc_bcc compat EW c l -> small c (concat (map address_texts l)) (concat (map address_strings l)).
Proof. intros c l [c' l' H|]; [now apply addresses_small|apply small_nil]. Qed.
Lemma keywords_small : forall c l, comma_list (rfc_phrase EW) c l -> small c (concat l) [].
Proof. intros c l H. pose proof (small_comma _ _ (fun v => v) (fun _ => []) _ _ phrase_small H) as S. now rewrite map_id, nones in S. Qed.
Lemma resent_small : forall c t, rfc_resent compat EW c t -> small c (resent_texts t) (resent_strings t).
Proof.
  intros c t [c' x H|c' x H|c' x H|c' x H|c' x H|c' x H|c' x H]; cbn [resent_texts resent_strings]; (eapply header_small; [exact H|]); intros c1 H1;
    first [apply small_nil|now apply mailboxes_small|now apply mailbox_small|now apply addresses_small|now apply bcc_small|eapply id_small; eassumption].
Qed.
End Phrases.

Lemma token_small : forall b c t, rfc_received_token b c t -> small c [] (token_strings t).
Proof.
  intros b c t [c' w H|c' a H|c' a H|c' d H]; cbn [token_strings].
  - apply word_len in H. apply small_str; lia.
  - eapply angle_small; eauto.
  - eapply addr_small; eauto.
  - apply domain_len in H. apply small_str; lia.
Qed.
Lemma received_small : forall b c x, rfc_received b c x -> small c [] (concat (map token_strings (fst x))).
Proof.
  intros b c x [c1 l c2 d H _]. cbn [fst]. pose proof (small_many _ _ (fun _ => []) token_strings _ _ (token_small b) H) as S. rewrite nones in S. eapply small_more; [exact S|]. len.
Qed.
Lemma trace_small : forall b (EW : bytes -> bytes -> Prop) c1 p c2 r c3 l, (forall c v, EW c v -> length v <= k * length c /\ 1 <= length c) -> rfc_return b c1 p ->
  many_of (rfc_header "Received" (rfc_received b)) c2 r -> many_of (rfc_resent b EW) c3 l -> small (c1 ++ c2 ++ c3) (trace_texts (p, r, l)) (trace_strings (p, r, l)).
Proof.
  intros b EW c1 p c2 r c3 l HE H1 H2 H3. unfold trace_texts, trace_strings.
  assert (S1 : small c1 [] (match p with Some (Some a) => email_address_strings a | _ => [] end)).
  { destruct H1 as [|c p H]; [apply small_nil|]. eapply header_small; [exact H|]. intros c' [c'' a Ha|x y z _ _ _]; [eapply angle_small; eauto|apply small_nil]. }
  assert (S2 : small c2 [] (concat (map (fun '(l, _) => concat (map token_strings l)) r))).
  { pose proof (small_many _ _ (fun _ => []) (fun x => concat (map token_strings (fst x))) _ _ (fun c a H => header_small _ _ _ _ _ _ _ H (fun c' => received_small b c' a)) H2) as S. rewrite nones in S.
    erewrite map_ext; [exact S|]. now intros [? ?]. }
  pose proof (small_many _ _ resent_texts resent_strings _ _ (resent_small b EW HE) H3) as S3. exact (small_app _ _ _ _ _ _ S1 (small_app _ _ _ _ _ _ S2 S3)).
Qed.

(* ---- encoded words and charsets ---- *)
Section Decoded.
Variables (E : env) (HE : expands k E).
Lemma charset_len : forall cs raw v, charset_decodes (textcode E) cs raw v -> length v <= k * length raw.
Proof. intros cs raw v H. destruct H; try apply HE; nia. Qed.
Lemma ew_len : forall c v, rfc_encoded_word (textcode E) c v -> length v <= k * length c /\ 1 <= length c.
Proof.
  intros c v [charset lang e text raw v' _ _ [_ Ht] H1 H2]. apply charset_len in H2.
  assert (L : length raw <= length text) by (destruct H1; [now apply base64_len|now apply (q_len (S (length text))); [lia|]]).
  rewrite !app_length. change (length (bs "=?")) with 2. nia.
Qed.
Lemma encoded_len : forall c v, encoded E c v -> length v <= k * length c /\ 1 <= length c.
Proof. intros c v [_ H]. now apply ew_len. Qed.
Lemma mime_text_len : forall c v, mime_unstructured_text (textcode E) c v -> length v <= k * length c.
Proof.
  intros c v [t v' w H _]. assert (L : length v' <= k * length t); [|rewrite app_length; nia]. clear w.
  induction H as [|af w u c0 t x Hw _ _ IH|af w u e d t x Hw He _ IH]; [cbn; lia| |]; apply fws_len in Hw; rewrite !app_length; cbn [length]; [nia|].
  apply ew_len in He. destruct af; cbn [length]; nia.
Qed.
(* ---- parameters ---- *)
Definition name_is (n : bytes) (p : param) : bool := let '(n', _, _, _) := p in bytes_eqb n n'.
Definition psize (p : param) : nat := let '(n, _, _, v) := p in length n + length v.
Definition vsize (p : param) : nat := let '(_, _, _, v) := p in length v.
Definition from_index (j : N) (p : param) : bool := let '(_, i, _, _) := p in match i with Some i => (j <=? i)%N | None => false end.
Definition segs (raw : list param) (n : bytes) (j : N) : nat := total (fun p => if name_is n p && from_index j p then vsize p else 0) raw.
Definition named (raw : list param) (n : bytes) : nat := total (fun p => if name_is n p then psize p else 0) raw.
Lemma segment_step : forall raw n j e v, segment raw n j = Some (e, v) -> length v + segs raw n (j + 1) <= segs raw n j.
Proof.
  intros raw n j e v H. unfold segment in H. apply last_some_in in H as (p & HI & H). destruct p as [[[n' i] e'] v']. destruct (bytes_eqb n n') eqn:N; [|discriminate].
  destruct i as [i|]; [|discriminate]. destruct (j =? i)%N eqn:J; [|discriminate]. apply N.eqb_eq in J. subst i. injection H as -> ->.
  unfold segs. set (f := fun p => if name_is n p && from_index j p then vsize p else 0). set (g := fun p => if name_is n p && from_index (j + 1) p then vsize p else 0).
  assert (G : forall p, g p <= f p).
  { intros [[[n2 i2] e2] v2]. unfold f, g. cbn [name_is from_index vsize]. destruct (bytes_eqb n n2); cbn [andb]; [|lia]. destruct i2 as [i2|]; [|lia]. destruct (j + 1 <=? i2)%N eqn:A; [|lia]. apply N.leb_le in A. replace (j <=? i2)%N with true by (symmetry; apply N.leb_le; lia). lia. }
  assert (X : f (n', Some j, e, v) = length v /\ g (n', Some j, e, v) = 0).
  { unfold f, g. cbn [name_is from_index vsize]. rewrite N, N.leb_refl. cbn. replace (j + 1 <=? j)%N with false by (symmetry; apply N.leb_gt; lia). auto. }
  destruct X as [X1 X2]. clear N. induction raw as [|p raw IH]; [easy|]. rewrite !total_cons. destruct HI as [->|HI].
  - rewrite X1, X2. pose proof (total_le _ g f raw (fun p _ => G p)). lia.
  - specialize (IH HI). specialize (G p). lia.
Qed.
Lemma ext_len : forall cs t v, ext_text (textcode E) cs t v -> length v <= k * length t.
Proof. intros cs t v [t' v' H|t' _]; [|nia]. apply charset_len in H. pose proof (rtl_len t'). nia. Qed.
Lemma first_len : forall s v cs, first_value (textcode E) s v cs -> length v <= k * length (snd s).
Proof. intros s v cs [v'|c lang t v' _ _ H]; cbn [snd]; [nia|]. apply ext_len in H. rewrite !app_length. cbn [length]. nia. Qed.
Lemma next_len : forall cs s v, next_value (textcode E) cs s v -> length v <= k * length (snd s).
Proof. intros cs s v [v'|v' _|c t v' _ H]; cbn [snd]; [nia|nia|]. now apply ext_len in H. Qed.
Lemma tail_len : forall raw n cs j r, tail_value (textcode E) (segment raw n) cs j r -> length r <= k * segs raw n j.
Proof.
  intros raw n cs j r H. induction H as [|j [e s] v r Hs Hv _ IH]; [cbn; lia|]. apply segment_step in Hs. apply next_len in Hv. cbn [snd] in Hv. rewrite app_length. nia.
Qed.
Lemma segs_named : forall raw n j, (exists p, In p raw /\ name_is n p = true) -> length n + segs raw n j <= named raw n.
Proof.
  intros raw n j (p & HI & Hp). unfold segs, named. set (f := fun p => if name_is n p && from_index j p then vsize p else 0). set (g := fun p => if name_is n p then psize p else 0).
  assert (G : forall p, f p <= g p) by (intros [[[n2 i2] e2] v2]; unfold f, g; cbn [name_is vsize psize]; destruct (bytes_eqb n n2); cbn [andb]; [|lia]; destruct (from_index _ _); lia).
  assert (X : length n + f p <= g p). { destruct p as [[[n2 i2] e2] v2]. unfold f, g. cbn [name_is] in *. rewrite Hp. apply bytes_eqb_eq in Hp. subst n2. cbn [andb vsize psize]. destruct (from_index _ _); lia. }
  clear Hp. induction raw as [|q raw IH]; [easy|]. rewrite !total_cons. destruct HI as [->|HI].
  - pose proof (total_le _ f g raw (fun p _ => G p)). lia.
  - specialize (IH HI). specialize (G q). lia.
Qed.
Lemma value_len : forall raw n v, param_value (textcode E) raw n (Some v) -> length n + length v <= k * named raw n /\ exists p, In p raw /\ name_is n p = true.
Proof.
  intros raw n v H. inversion H as [H0 HP|s v1 cs r H0 H1 H2]; subst.
  - unfold plain_value in HP. apply last_some_in in HP as (p & HI & HP). destruct p as [[[n' i] e] w]. destruct (bytes_eqb n n') eqn:N; [|discriminate]. destruct i; [discriminate|]. injection HP as ->.
    split; [|exists (n', None, e, v); auto]. unfold named. pose proof (total_in _ (fun p => if name_is n p then psize p else 0) _ _ HI) as T. cbn [name_is psize] in T. rewrite N in T. apply bytes_eqb_eq in N. subst n'. nia.
  - assert (X : exists p, In p raw /\ name_is n p = true).
    { unfold segment in H0. apply last_some_in in H0 as (p & HI & H0). exists p. split; [exact HI|]. destruct p as [[[n' i] e] w]. cbn. now destruct (bytes_eqb n n'). }
    split; [|exact X]. destruct s as [e s]. apply segment_step in H0. apply first_len in H1. cbn [snd] in H1. apply tail_len in H2. pose proof (segs_named raw n 0 X). rewrite app_length. change (0 + 1)%N with 1%N in H0. nia.
Qed.
Lemma names_total : forall (raw : list param) ns, NoDup ns -> total (named raw) ns <= total psize raw.
Proof.
  intros raw ns HN. induction raw as [|p raw IH].
  - clear HN. induction ns as [|n ns IH]; [cbn; lia|]. rewrite total_cons. cbn in *. lia.
  - rewrite total_cons. assert (X : total (named (p :: raw)) ns = total (fun n => if name_is n p then psize p else 0) ns + total (named raw) ns) by (rewrite total_sum; reflexivity).
    rewrite X. assert (Y : total (fun n => if name_is n p then psize p else 0) ns <= psize p); [|lia]. clear -HN. destruct p as [[[n' i] e] v]. cbn [name_is]. induction HN as [|n ns Hn HN IH]; [cbn; lia|].
    rewrite total_cons. destruct (bytes_eqb n n') eqn:N; [|lia]. apply bytes_eqb_eq in N. subst n'.
    assert (Z : total (fun m => if bytes_eqb m n then psize (n, i, e, v) else 0) ns = 0); [|lia]. clear -Hn. induction ns as [|m ns IH]; [reflexivity|]. rewrite total_cons.
    destruct (bytes_eqb m n) eqn:N; [apply bytes_eqb_eq in N; subst; exfalso; apply Hn; now left|]. apply IH. intros H. apply Hn. now right.
Qed.
Lemma get_found : forall (l : list (bytes * bytes)) n v, NoDup (map fst l) -> In (n, v) l -> map_get l n = Some v.
Proof.
  intros l n v HN HI. induction l as [|[m w] l IH]; [easy|]. cbn [map fst] in HN. inversion HN as [|? ? Hm Hl]; subst. cbn [map_get]. destruct (bytes_eqb n m) eqn:B.
  - apply bytes_eqb_eq in B. subst m. destruct HI as [[= <-]|HI]; [reflexivity|]. exfalso. apply Hm. apply in_map_iff. exists (n, v). auto.
  - destruct HI as [[= <- <-]|HI]; [|auto]. exfalso. assert (bytes_eqb m m = true) by now apply bytes_eqb_eq. congruence.
Qed.
Lemma values_map : forall (l : list (bytes * bytes)), NoDup (map fst l) -> map_values l = map snd l.
Proof.
  intros l HN. unfold map_values. rewrite map_map. rewrite <- (singles (map snd l)). rewrite map_map. f_equal. apply map_ext_in. intros [n v] HI. cbn [fst snd]. now rewrite (get_found _ _ _ HN HI).
Qed.
Lemma params_len : forall raw l, NoDup (map fst l) -> params_value (textcode E) raw l -> volume (map_values l) + volume (map fst l) <= k * total psize raw /\ length (map_values l) + length (map fst l) <= 2 * length raw.
Proof.
  intros raw l HN HP. rewrite (values_map _ HN). rewrite !map_length.
  assert (X : forall n v, In (n, v) l -> length n + length v <= k * named raw n /\ exists p, In p raw /\ name_is n p = true).
  { intros n v HI. apply value_len. rewrite <- (get_found _ _ _ HN HI). apply HP. }
  split.
  - pose proof (names_total raw _ HN) as T. assert (Y : volume (map snd l) + volume (map fst l) <= k * total (named raw) (map fst l)); [|nia].
    unfold volume. clear -X. induction l as [|[n v] l IH]; [cbn; lia|]. cbn [map fst snd list_sum fold_right] in *. rewrite total_cons. destruct (X n v (or_introl eq_refl)) as [X1 _].
    specialize (IH (fun n v H => X n v (or_intror H))). unfold list_sum in *. nia.
  - assert (Z : length (map fst l) <= length (map (fun p : param => fst (fst (fst p))) raw)).
    { apply NoDup_incl_length; [exact HN|]. intros n Hn. apply in_map_iff in Hn as ([n' v] & <- & HI). destruct (X _ _ HI) as (_ & [[[m i] e] w] & HI2 & Hp). cbn [name_is fst] in *. apply bytes_eqb_eq in Hp. subst m.
      apply in_map_iff. exists (n', i, e, w). auto. }
    rewrite !map_length in Z. lia.
Qed.
Lemma param_value_len : forall c v, rfc_param_value c v -> length v <= length c /\ 1 <= length c.
Proof. intros c v [c' [H _]|c' v' H]; [destruct c'; [easy|]; cbn; lia|]. apply quoted_len in H. lia. Qed.
Lemma param_name_len : forall c a i e, rfc_param_name c (a, i, e) -> length a <= length c /\ 1 <= length c.
Proof.
  intros c a i e H. inversion H; subst; match goal with K : chars1 _ ?x |- _ => destruct K as [K _]; destruct x | K : mime_token ?x |- _ => destruct K as [K _]; destruct x end; try easy;
    rewrite ?app_length, ?map_length; cbn [length]; lia.
Qed.
Lemma param_len : forall c p, rfc_param c p -> psize p + 2 <= length c /\ 4 <= length c.
Proof.
  intros c p [w w' n a i e c' v _ _ H1 H2]. apply param_name_len in H1. apply param_value_len in H2. cbn [psize]. rewrite !app_length. change (length (bs ";")) with 1. change (length (bs "=")) with 1. lia.
Qed.
Lemma params_small : forall c raw l, NoDup (map fst l) -> many_of rfc_param c raw -> params_value (textcode E) raw l -> small c (map_values l) (map fst l).
Proof.
  intros c raw l HN HM HP. destruct (params_len _ _ HN HP) as [P1 P2].
  pose proof (many_total _ _ psize _ _ (fun c a H => Nat.le_trans _ _ _ (Nat.le_add_r _ 2) (proj1 (param_len c a H))) HM) as T1. pose proof (many_total _ _ (fun _ => 4) _ _ (fun c a H => proj2 (param_len c a H)) HM) as T2.
  rewrite total_const in T2. split; [nia|lia].
Qed.
Lemma keyword_small : forall A (table : list (bytes * A)) other c a f, (forall n a, In (n, a) table -> f a = []) -> (forall n, f (other n) = [n]) -> rfc_keyword table other c a -> small c [] (f a).
Proof.
  intros A table other c a f H1 H2 [n c' a' HI _|c' [HT _] _]; [rewrite (H1 _ _ HI); apply small_nil|]. rewrite H2. apply small_str; rewrite ?map_length; destruct c'; try easy; cbn; lia.
Qed.
Lemma content_type_small : forall c t s l, NoDup (map fst l) -> rfc_content_type (textcode E) c (t, s, l) -> small c (map_values l) (type_strings t ++ [s] ++ map fst l).
Proof.
  intros c t s l HN H. inversion H as [w c' t' s' ps raw l' x _ H1 [H2 _] H3 H4 _]; subst.
  assert (S1 : small c' [] (type_strings t)).
  { eapply (keyword_small _ _ _ _ _ type_strings); [| |exact H1]; [|reflexivity]. intros n a Ha. cbn in Ha. repeat (destruct Ha as [[= <- <-]|Ha]; [reflexivity|]). easy. }
  assert (S2 : small s' [] [map fold_case s']) by (apply small_str; rewrite ?map_length; destruct s'; try easy; cbn; lia).
  pose proof (params_small _ _ _ HN H3 H4) as S3. eapply small_more; [exact (small_app _ _ _ _ _ _ S1 (small_app _ _ _ _ _ _ S2 S3))|]. len.
Qed.
Definition isize (d : disposition_item) : nat := match d with DFilename v => length v | DParam p => psize p | _ => 0 end.
Definition icount (d : disposition_item) : nat := match d with DFilename _ => 1 | DParam _ => 2 | _ => 0 end.
Lemma item_len : forall c d, rfc_disposition_item c d -> isize d <= length c /\ icount d <= length c.
Proof.
  intros c d H. destruct H as [w w' n c v _ _ _ H|w w' n c d _ _ _ H|w w' n c d _ _ _ H|w w' n c d _ _ _ H|c p H]; cbn [isize icount]; try lia.
  - apply param_value_len in H. len.
  - apply param_len in H. lia.
Qed.
Lemma items_total : forall items, total psize (params_of items) + match last_some (fun i => match i with DFilename v => Some v | _ => None end) items with Some v => length v | None => 0 end <= total isize items /\
  2 * length (params_of items) + match last_some (fun i => match i with DFilename v => Some v | _ => None end) items with Some v => 1 | None => 0 end <= total icount items.
Proof.
  induction items as [|d items IH]; [cbn; lia|]. unfold params_of in *. cbn [map concat last_some]. rewrite !total_cons. unfold total in *. rewrite !map_app, list_sum_app, app_length in *. destruct d; cbn [isize icount map list_sum fold_right length app] in *; destruct (last_some _ items); unfold list_sum in *; cbn; lia.
Qed.
Lemma disposition_small : forall c d, NoDup (map fst (disp_unstructured d)) -> rfc_disposition (textcode E) c d -> small c (disposition_texts d) (disposition_strings d).
Proof.
  intros c d HN H. destruct H as [w c' kd is items l x _ H1 H2 H3 _]. unfold disposition_texts, disposition_strings. cbn [disposition_type disp_filename disp_unstructured] in *.
  assert (S1 : small c' [] (match kd with DUnknown n => [n] | _ => [] end)).
  { eapply (keyword_small _ _ _ _ _ (fun kd => match kd with DUnknown n => [n] | _ => [] end)); [| |exact H1]; [|reflexivity]. intros n a Ha. cbn in Ha. repeat (destruct Ha as [[= <- <-]|Ha]; [reflexivity|]). easy. }
  destruct (params_len _ _ HN H3) as [P1 P2]. destruct (items_total items) as [T1 T2].
  pose proof (many_total _ _ isize _ _ (fun c a H => proj1 (item_len c a H)) H2) as M1. pose proof (many_total _ _ icount _ _ (fun c a H => proj2 (item_len c a H)) H2) as M2.
  assert (S2 : small is (map_values l) (opt_list (last_some (fun i => match i with DFilename v => Some v | _ => None end) items) ++ map fst l)).
  { unfold small. rewrite volume_app, app_length. destruct (last_some _ items) as [v|]; cbn [opt_list length]; rewrite ?volume_one; [split; [nia|lia]|]. change (volume []) with 0. split; [nia|lia]. }
  eapply small_more; [exact (small_app _ _ _ _ _ _ S1 S2)|]. len.
Qed.

End Decoded.

(* ---- fields ---- *)
Section Fields.
Variables (E : env) (HM : f_mime E = true -> expands k E) (HU : f_unrecognized_headers E = true -> f_mime E = true).
Lemma text_value_len : forall (b : bool) c v, (b = true -> f_mime E = true) -> rfc_text_value b (textcode E) c v -> length v <= k * length c.
Proof. intros [|] c v Hb H; [eapply mime_text_len; eauto|]. apply utext_len in H. nia. Qed.
Lemma encoded_fits : forall c v, encoded E c v -> length v <= k * length c /\ 1 <= length c.
Proof. intros c v H. pose proof (proj1 H) as M. eapply encoded_len; eauto. Qed.
(* the maps of a field have one entry per name *)
Definition keyed (f : field) : Prop :=
  match f with FContentType _ _ p => NoDup (map fst p) | FContentDisposition d => NoDup (map fst (disp_unstructured d)) | _ => True end.
Lemma text_small : forall n (V : bytes -> bytes -> Prop) c v, rfc_header n V c v -> (forall c v, V c v -> length v <= k * length c) -> small c [v] [].
Proof. intros n V c v [n' c' v' _ H] HV. apply HV in H. apply small_one; rewrite !app_length; cbn [length]; nia. Qed.
Lemma unknown_small : forall c n v, rfc_unknown E c (n, v) -> small c [v] [n].
Proof.
  intros c n v H. inversion H as [n' c' v' [Hn _] HV]; subst. apply text_value_len in HV; [|exact HU]. unfold small, volume. cbn [map list_sum fold_right length]. rewrite !app_length. cbn [length]. destruct n; [easy|]. cbn [length]. nia.
Qed.
Lemma field_small : forall c f, field_text E c f -> keyed f -> small c (field_texts f) (field_strings f).
Proof.
  intros c f H HK.
  destruct H as [c d _ H|c l _ H|c m _ H|c l _ H|c l _ H|c l _ H|c l _ H|c i _ H|c l _ H|c l _ H|c s _ H|c s _ H|c l _ H|c x y M H|c t s p M H|c e M H|c i M H|c s M H|c d M H|c1 p c2 r c3 l _ H1 _ H2 H3|c n v H];
    cbn [field_texts field_strings keyed] in *.
  - apply small_nil.
  - eapply header_small; [exact H|]. intros c' H'. eapply mailboxes_small; [|exact H']. apply encoded_fits.
  - eapply header_small; [exact H|]. intros c' H'. eapply mailbox_small; [|exact H']. apply encoded_fits.
  - eapply header_small; [exact H|]. intros c' H'. eapply addresses_small; [|exact H']. apply encoded_fits.
  - eapply header_small; [exact H|]. intros c' H'. eapply addresses_small; [|exact H']. apply encoded_fits.
  - eapply header_small; [exact H|]. intros c' H'. eapply addresses_small; [|exact H']. apply encoded_fits.
  - eapply header_small; [exact H|]. intros c' H'. eapply bcc_small; [|exact H']. apply encoded_fits.
  - eapply header_small; [exact H|]. intros c' H'. eapply id_small; exact H'.
  - eapply header_small; [exact H|]. intros c' [_ H']. pose proof (small_many _ _ (fun _ => []) id_strings _ _ (id_small _) H') as S. now rewrite nones in S.
  - eapply header_small; [exact H|]. intros c' [_ H']. pose proof (small_many _ _ (fun _ => []) id_strings _ _ (id_small _) H') as S. now rewrite nones in S.
  - eapply text_small; [exact H|]. intros c' v'. now apply text_value_len.
  - eapply text_small; [exact H|]. intros c' v'. now apply text_value_len.
  - eapply header_small; [exact H|]. intros c' H'. eapply keywords_small; [|exact H']. apply encoded_fits.
  - apply small_nil.
  - eapply header_small; [exact H|]. intros c' H'. apply (content_type_small E (HM M)); assumption.
  - apply small_nil.
  - eapply header_small; [exact H|]. intros c' H'. eapply id_small; exact H'.
  - eapply text_small; [exact H|]. exact (mime_text_len E (HM M)).
  - eapply header_small; [exact H|]. intros c' H'. apply (disposition_small E (HM M)); assumption.
  - eapply trace_small; eauto. apply encoded_fits.
  - now apply unknown_small.
Qed.
End Fields.
End Size.

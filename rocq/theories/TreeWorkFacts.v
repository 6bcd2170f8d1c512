(* C70: the work of reading a mail with all its parts is cubic if no multipart is encoded. *)
From Coq Require Import Lia.
From Verif Require Import Base Utf8 Charset Time Address MimeFields Fields Message Entity Email Envs RfcFields EmailSpec EntitySpec TextSpec SizeSpec MultipartSpec CutSpec CutFacts EmailProofs MessageFacts SoundMessage TextFacts SizeFacts SizeMail SafetyProofs
  TimedMime TimedMimeMail TimedMimeLow GrowSpec GrowFacts UnencodedSpec UnencodedFacts TreeWorkSpec.
Local Open Scope nat_scope.
Local Ltac lia := unfold bytes, byte in *; Lia.lia.
Local Ltac nia := unfold bytes, byte in *; Lia.nia.

Lemma parameters_volume : forall r, NoDup (map fst (e_parameters r)) -> list_sum (map (fun p => length (snd p)) (e_parameters r)) + length (e_value r) <= volume (part_contents r).
Proof.
  intros r N. assert (X : list_sum (map (fun p : bytes * bytes => length (snd p)) (e_parameters r)) = volume (map_values (e_parameters r))) by (rewrite (values_map _ N); unfold volume; now rewrite map_map).
  match goal with |- ?a + _ <= _ => replace a with (volume (map_values (e_parameters r))) by (symmetry; exact X) end. unfold part_contents, entity_texts. rewrite !volume_app, volume_one. lia.
Qed.
Lemma default_distinct : NoDup (map fst (snd (type_of None))).
Proof. cbn. constructor; [intros []|constructor]. Qed.
Lemma part_distinct : forall E p e, env_ok E -> raw_entity E p = Ok e -> NoDup (map fst (e_parameters e)).
Proof.
  intros E p e HE H. destruct (part_keyed E p e HE H) as (hs & b & _ & K & O). pose proof (f_equal snd (of_part_type _ _ _ O)) as T. cbn [snd] in T. rewrite T. destruct (last_some of_type hs) as [x|] eqn:L; [|exact default_distinct].
  apply last_some_in in L as (h & Hh & Hx). apply (proj1 (Forall_forall _ _) K) in Hh. destruct h; try discriminate Hx. injection Hx as <-. exact Hh.
Qed.
Lemma mail_distinct : forall E D e r, env_ok E -> f_mime E = true -> parse E D = Ok e -> mime_entity e = Some r -> NoDup (map fst (e_parameters r)).
Proof.
  intros E D e r HE HM H Hr. destruct (parse_keyed E D e HE H) as (fs & b & _ & K & O). pose proof (of_mime _ _ _ _ O) as Q. rewrite HM in Q. destruct Q as (v & _ & Q). rewrite Hr in Q. injection Q as ->. cbn [e_parameters].
  unfold only. destruct (pick is_content_type fs) as [|x l] eqn:L; [exact default_distinct|]. cbn [hd_error type_of]. assert (I : In x (pick is_content_type fs)) by (rewrite L; now left).
  apply in_pick in I as (f & Hf & Hx). apply (proj1 (Forall_forall _ _) K) in Hf. destruct f; try discriminate Hx. injection Hx as <-. exact Hf.
Qed.
Section tree.
Context (E : env) (HE : env_ok E) (HM : f_mime E = true) (HX : expands 4 E) (HD : debug E = false).
Lemma part_weight : forall p e, raw_entity E p = Ok e -> weight e <= 6 * (length p + 4).
Proof. intros p e H. destruct (part_size 4 E p e ltac:(lia) HE HM HX H) as [V _]. pose proof (parameters_volume e (part_distinct E p e HE H)). unfold weight. lia. Qed.
Lemma no_crash : forall r c, entity E r <> Crash c.
Proof. intros r c H. destruct (entity_total E r HE HD) as [[x X]|[x X]]; congruence. Qed.

(* one step of an induction over the tree; each part counts four bytes more *)
Lemma step4 : forall (f : raw_entity_t -> nat) (g : nat -> nat) r, unencoded E r -> (forall x y, g x + g y <= g (x + y)) ->
  (forall p e, raw_entity E p = Ok e -> In e (children E r) -> kept p e -> f e <= g (length p + 4)) ->
  children E r = [] \/ exists s, list_sum (map f (children E r)) <= g s /\ s <= length (e_value r).
Proof.
  intros f g r U Hg Hf. destruct (children E r) as [|e0 l0] eqn:N; [now left|right]. destruct (children_parts E r) as (b & ps & B & C & F); [rewrite N; discriminate|]. pose proof (parts_text_size _ _ _ C) as L. rewrite <- N in *. exists (sums (@length byte) ps + 4 * length ps).
  assert (K : forall p e, In p ps -> raw_entity E p = Ok e -> kept p e) by (intros p e Hp He; apply (U 0 r (or_introl eq_refl) b ps p e B C Hp He)). clear U B C N. split; [|lia]. clear L.
  induction F as [|p e ps es He F IH]; [cbn; lia|]. assert (I1 : list_sum (map f es) <= g (sums (@length byte) ps + 4 * length ps)) by (apply IH; [intros; apply Hf; auto; now right|intros; apply K; auto; now right]).
  cbn [map length]. rewrite sums_cons. change (list_sum (f e :: map f es)) with (f e + list_sum (map f es)). pose proof (Hf p e He (or_introl eq_refl) (K p e (or_introl eq_refl) He)) as I2. pose proof (Hg (length p + 4) (sums (@length byte) ps + 4 * length ps)) as I3.
  eapply Nat.le_trans; [apply Nat.add_le_mono; [exact I2|exact I1]|]. eapply Nat.le_trans; [exact I3|]. apply Nat.eq_le_incl. f_equal. lia.
Qed.
Lemma cubes : forall x y, 12 * (x * (x * x)) + 12 * (y * (y * y)) <= 12 * ((x + y) * ((x + y) * (x + y))).
Proof. intros x y. nia. Qed.
Lemma weights : forall n r, unencoded E r -> list_sum (map (fun x => weight x * weight x) (below E n r)) <= 12 * (length (e_value r) * (length (e_value r) * length (e_value r))).
Proof.
  induction n as [|n IH]; intros r U; [cbn; lia|]. cbn [below]. rewrite (sum_concat (fun x => weight x * weight x) (fun x => x :: below E n x)).
  destruct (step4 (fun x => list_sum (map (fun y => weight y * weight y) (x :: below E n x))) (fun s => 12 * (s * (s * s))) r U cubes) as [X|(s & X1 & X2)].
  - intros p e He Hc K. cbn [map]. change (list_sum (?a :: ?l)) with (a + list_sum l). pose proof (part_weight p e He) as W. assert (Q : weight e * weight e <= 36 * ((length p + 4) * (length p + 4))) by nia. destruct (is_leaf e) eqn:T.
    + rewrite (leaf_below E n e (leaf_true e T)). cbn [map list_sum fold_right]. nia.
    + destruct (K (leaf_false e T)) as [h Hp]. specialize (IH e (unencoded_child E _ _ U Hc)). assert (L : length (e_value e) <= length p) by (rewrite Hp, app_length; lia).
      assert (I : list_sum (map (fun y => weight y * weight y) (below E n e)) <= 12 * (length p * (length p * length p))) by (eapply Nat.le_trans; [exact IH|]; apply Nat.mul_le_mono_l; apply Nat.mul_le_mono; [exact L|]; apply Nat.mul_le_mono; exact L).
      clear - Q I. nia.
  - rewrite X. cbn. lia.
  - eapply Nat.le_trans; [exact X1|]. apply Nat.mul_le_mono_l, Nat.mul_le_mono; [exact X2|]. now apply Nat.mul_le_mono.
Qed.
End tree.
Theorem tree_cubic : exists K, forall E r n, env_ok E -> f_mime E = true -> expands 4 E -> debug E = false -> unencoded E r ->
  tree_work E n r <= K * (weight r * weight r + length (e_value r) * (length (e_value r) * length (e_value r))).
Proof.
  destruct entity_work as [K HK]. exists (K * 12). intros E r n HE HM HX HD U. unfold tree_work. cbn [map]. change (list_sum (?a :: ?l)) with (a + list_sum l).
  assert (W : forall x, snd (m_entity E x) <= K * (weight x * weight x)) by (intros x; exact (proj2 (HK E x HE HX (no_crash E HE HD x)))).
  assert (S : list_sum (map (fun x => snd (m_entity E x)) (below E n r)) <= K * list_sum (map (fun x => weight x * weight x) (below E n r))).
  { induction (below E n r) as [|x l IL]; [cbn; lia|]. cbn [map]. change (list_sum (?a :: ?l)) with (a + list_sum l). pose proof (W x). rewrite Nat.mul_add_distr_l. lia. }
  pose proof (weights E HE HM HX n r U) as T. pose proof (W r) as R. set (a := weight r * weight r) in *. set (c := length (e_value r) * (length (e_value r) * length (e_value r))) in *. clearbody a c.
  assert (T' : K * list_sum (map (fun x => weight x * weight x) (below E n r)) <= K * (12 * c)) by (now apply Nat.mul_le_mono_l). nia.
Qed.
Theorem mail_tree_cubic : exists K, forall E D e r n, env_ok E -> f_mime E = true -> expands 4 E -> debug E = false ->
  parse E D = Ok e -> mime_entity e = Some r -> kept D r -> unencoded E r ->
  snd (m_parse E D) + tree_work E n r <= K * (S (length D) * (S (length D) * S (length D))).
Proof.
  destruct mail_work as [K1 H1]. destruct tree_cubic as [K2 H2]. exists (K1 + K2 * (30 * 30 + 27)). intros E D e r n HE HM HX HD H Hr HK U.
  assert (NC : forall c, parse E D <> Crash c) by (intros c X; congruence). pose proof (proj2 (H1 E D HE HX HM NC)) as P. pose proof (H2 E r n HE HM HX HD U) as T.
  destruct (mime_mail_size 4 E D e ltac:(lia) HE HM HX H) as [[V1 V2] _].
  assert (W : volume (part_contents r) <= volume (contents e)).
  { unfold contents, email_texts, email_strings, part_contents. rewrite Hr, !volume_app. lia. }
  pose proof (parameters_volume r (mail_distinct E D e r HE HM H Hr)) as Q. assert (W' : weight r <= 30 * S (length D)) by (unfold weight; lia). assert (L : length (e_value r) <= 3 * S (length D)).
  { pose proof (proj1 (mail_levels E HE D e r HM H Hr 0)) as X. change (3 ^ 1) with 3 in X. unfold level, value_bytes in X. cbn [map list_sum fold_right] in X. lia. }
  set (d := S (length D)) in *. assert (D1 : 1 <= d) by (unfold d; lia). clearbody d.
  assert (A : weight r * weight r <= 30 * 30 * (d * (d * d))) by nia.
  assert (B : length (e_value r) * (length (e_value r) * length (e_value r)) <= 27 * (d * (d * d))).
  { apply Nat.le_trans with (3 * d * (3 * d * (3 * d))); [|nia]. apply Nat.mul_le_mono; [exact L|]. now apply Nat.mul_le_mono. }
  set (c := d * (d * d)) in *. clearbody c. assert (C : K2 * (weight r * weight r + length (e_value r) * (length (e_value r) * length (e_value r))) <= K2 * ((30 * 30 + 27) * c)) by (apply Nat.mul_le_mono_l; lia). nia.
Qed.

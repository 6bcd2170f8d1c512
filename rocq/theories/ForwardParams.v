(* The value of the parameters is determined by the specification, and whenever the
   specification gives one the parser finds it. *)
From Coq Require Import Lia ZifyBool ZifyNat ZifyN Permutation.
From Verif Require Import Base Utf8 CharSets Combinators Charset Percent Rfc5322 Post CodecSpec CodecArith PercentProofs RfcFields SoundTime Complete Forward ParamProofs.
Local Open Scope N_scope.

(* ---- functional ---- *)
Lemma charset_decodes_fun : forall E cs t v v', charset_decodes (textcode E) cs t v -> charset_decodes (textcode E) cs t v' -> v = v'.
Proof. intros E cs t v v' H H'. apply charset_spec in H, H'. congruence. Qed.
Lemma charset_decodes_known : forall E cs t v, charset_decodes (textcode E) cs t v -> exists k, find_charset cs = Some k.
Proof. intros E cs t v H. apply charset_spec in H. unfold charset_value in H. destruct (find_charset cs) as [k|]; [eauto|discriminate]. Qed.
Lemma find_charset_name : forall cs k, find_charset cs = Some k -> In cs charset_names.
Proof.
  intros cs k. unfold find_charset, charset_table. cbn [map_get].
  repeat match goal with |- context [bytes_eqb cs ?x] =>
    let H := fresh in destruct (bytes_eqb cs x) eqn:H; [apply bytes_eqb_eq in H; subst; intros _; vm_compute; tauto|clear H] end.
  discriminate.
Qed.
Lemma ext_text_fun : forall E cs t v v', ext_text (textcode E) cs t v -> ext_text (textcode E) cs t v' -> v = v'.
Proof.
  intros E cs t v v' H H'. inversion H; subst; inversion H'; subst; auto.
  - eapply charset_decodes_fun; eassumption.
  - exfalso. match goal with A : charset_decodes _ _ _ _, B : ~ _ |- _ => apply B; apply charset_decodes_known in A as [k A]; eapply find_charset_name, A end.
  - exfalso. match goal with A : charset_decodes _ _ _ _, B : ~ _ |- _ => apply B; apply charset_decodes_known in A as [k A]; eapply find_charset_name, A end.
Qed.

(* ---- forward ---- *)
Lemma decode_parameter_forward : forall E cs t v, ascii t -> ext_text (textcode E) cs t v -> decode_parameter E t cs = Ok v.
Proof.
  intros E cs t v Ht H. inversion H as [t' v' Hd|t' Hn]; subst.
  - destruct (charset_decodes_known _ _ _ _ Hd) as [k Hk]. rewrite (decode_parameter_spec E t cs k Hk). now apply (charset_value_ok E cs k).
  - destruct (find_charset cs) as [k|] eqn:Hk; [exfalso; apply Hn; eapply find_charset_name, Hk|].
    rewrite decode_parameter_unknown by auto. now apply str_unchecked_ascii.
Qed.
Lemma quote_forward : forall c r, ascii c -> ~ In 39 c -> take_while (fun c => negb (c =? 39)) (c ++ 39 :: r) = Ok (39 :: r, c).
Proof.
  intros c r Ha Hn. unfold take_while. rewrite span_app; [|apply Forall_forall; intros x Hx; apply negb_true_iff, N.eqb_neq; intros ->; auto|reflexivity].
  now rewrite str_unchecked_ascii.
Qed.
Lemma first_segment_forward : forall E e s v cs, ascii s -> first_value (textcode E) (e, s) v cs -> first_segment E e s = Ok (v, cs).
Proof.
  intros E e s v cs Hs H. inversion H as [|cs' lang t v' H1 H2 H3]; subst; [reflexivity|].
  apply Forall_app in Hs as [A1 Hs]. apply Forall_inv_tail in Hs. apply Forall_app in Hs as [A2 Hs]. apply Forall_inv_tail in Hs.
  unfold first_segment. change ([39] ++ lang ++ [39] ++ t) with (39 :: lang ++ 39 :: t). rewrite quote_forward by auto. cbn [bind].
  change (39 :: lang ++ 39 :: t) with (bs "'" ++ lang ++ 39 :: t). rewrite tag_app. cbn [bind]. rewrite quote_forward by auto. cbn [bind].
  change (39 :: t) with (bs "'" ++ t). rewrite tag_app. cbn [bind]. rewrite lowercase_fold.
  rewrite (decode_parameter_forward E _ _ v) by auto. reflexivity.
Qed.
Lemma first_value_fun : forall E s v cs v' cs', ascii (snd s) -> first_value (textcode E) s v cs -> first_value (textcode E) s v' cs' -> v = v' /\ cs = cs'.
Proof.
  intros E [e s] v cs v' cs' Hs H H'. cbn in Hs. apply (first_segment_forward E e s _ _ Hs) in H. apply (first_segment_forward E e s _ _ Hs) in H'.
  rewrite H in H'. inversion H'. auto.
Qed.
Definition value_step (E : env) (cs : option bytes) (s : bool * bytes) : res bytes :=
  match fst s, cs with true, Some c => decode_parameter E (snd s) c | _, _ => Ok (snd s) end.
Lemma next_value_forward : forall E cs s v, ascii (snd s) -> next_value (textcode E) cs s v -> value_step E cs s = Ok v.
Proof.
  intros E cs [e s] v Hs H. unfold value_step. inversion H as [|v' Hc|c t v' Hc Ht]; subst; cbn; auto. now apply decode_parameter_forward.
Qed.

(* the index is a u8: it overflows after segment 255 *)
Definition no_overflow (E : env) (seg : N -> option (bool * bytes)) : Prop := debug E = false \/ seg 255 = None.
Lemma next_segments_forward : forall E seg cs n values idx value r,
  (length values < n)%nat -> NoDup (map fst values) -> Forall seg_ok values -> idx < 256 -> idx <> 0 ->
  (forall k, iget values k = if k <? idx then None else seg k) ->
  (forall k s, seg k = Some s -> k < 256) -> no_overflow E seg ->
  tail_value (textcode E) seg cs idx r -> next_segments E n values cs idx value = Ok (value ++ r).
Proof.
  intros E seg cs n. induction n as [|n IH]; intros values idx value r Hn Hd Hok Hi Hi0 Hv Hseg Hov Ht; [lia|]. cbn [next_segments].
  pose proof (imap_remove_spec values idx Hd) as R. destruct (imap_remove values idx) as [[[e nv] values']|].
  - destruct R as (R1 & R2 & R3 & R4 & R5). pose proof (iget_ok _ _ _ Hok R1) as [_ Ha]. cbn in Ha.
    assert (Hs : seg idx = Some (e, nv)). { rewrite <- R1, Hv. destruct (N.ltb_spec idx idx); [lia|reflexivity]. }
    assert (Hok' : Forall seg_ok values') by (eapply Forall_incl; eauto).
    inversion Ht as [k Hk|k s v r' Hk Hnv Hr]; subst; [congruence|]. rewrite Hs in Hk. inversion Hk; subst s. clear Hk.
    pose proof (next_value_forward E cs (e, nv) v Ha Hnv) as Hstep. unfold value_step in Hstep. cbn in Hstep.
    assert (Hval : match e, cs with true, Some c => let* d := decode_parameter E nv c in Ok (value ++ d) | _, _ => Ok (value ++ nv) end = Ok (value ++ v)).
    { destruct e, cs as [c|]; try (inversion Hstep; reflexivity). rewrite Hstep. reflexivity. }
    match goal with |- bind ?x _ = _ => change x with (match e, cs with true, Some c => let* d := decode_parameter E nv c in Ok (value ++ d) | _, _ => Ok (value ++ nv) end) end.
    rewrite Hval. cbn [bind]. unfold u8_add. destruct (N.ltb_spec (idx + 1) 256) as [Hlt|Hge].
    + cbn [bind]. rewrite (IH values' (idx + 1) (value ++ v) r'); auto; try lia; [now rewrite app_assoc|].
      intros k. rewrite R4, Hv. destruct (N.eqb_spec k idx), (N.ltb_spec k idx), (N.ltb_spec k (idx + 1)); auto; lia.
    + replace idx with 255 in * by lia. destruct Hov as [->|Hov]; [|congruence]. cbn [bind].
      change ((255 + 1) mod 256) with 0.
      destruct n as [|n]; [lia|]. cbn [next_segments]. pose proof (imap_remove_spec values' 0 R2) as R'.
      assert (Z : iget values' 0 = None). { rewrite R4, Hv. destruct (N.eqb_spec 0 255), (N.ltb_spec 0 255); auto; lia. }
      destruct (imap_remove values' 0) as [[? ?]|]; [destruct R' as [R' _]; congruence|].
      inversion Hr as [k Hk|k s v' r'' Hk _ _]; subst; [now rewrite app_nil_r|]. apply Hseg in Hk. lia.
  - inversion Ht as [k Hk|k s v r' Hk _ _]; subst; [now rewrite app_nil_r|]. rewrite Hv in R. destruct (N.ltb_spec idx idx); [lia|congruence].
Qed.

Lemma join_segments_forward : forall E values o, NoDup (map fst values) -> Forall seg_ok values -> no_overflow E (iget values) ->
  joined (textcode E) (iget values) o -> join_segments E values = Ok o.
Proof.
  intros E values o Hd Hok Hov Hj. unfold join_segments. pose proof (imap_remove_spec values 0 Hd) as R.
  destruct (imap_remove values 0) as [[[e v] values']|].
  - destruct R as (R1 & R2 & R3 & R4 & R5). pose proof (iget_ok _ _ _ Hok R1) as [_ Ha]. cbn in Ha.
    destruct o as [x|]; cbn in Hj; [|congruence]. destruct Hj as (s & d & cs & r & J1 & J2 & J3 & ->). rewrite R1 in J1. inversion J1; subst s.
    rewrite (first_segment_forward E e v d cs) by auto. cbn [bind].
    rewrite (next_segments_forward E (iget values) cs _ values' 1 d r); auto; try lia.
    + eapply Forall_incl; eauto.
    + intros k. rewrite R4. destruct (N.eqb_spec k 0), (N.ltb_spec k 1); auto; lia.
    + intros k s Hs. now apply (iget_ok _ _ _ Hok) in Hs.
  - destruct o as [x|]; auto. cbn in Hj. destruct Hj as (s & d & cs & r & J1 & _). congruence.
Qed.

Lemma join_all_forward : forall E complex names params, complex_ok complex ->
  (forall n, In n names -> no_overflow E (iget (default_map (map_get complex n)))) ->
  (forall n, In n names -> exists o, joined (textcode E) (iget (default_map (map_get complex n))) o) ->
  exists ps, join_all E names complex params = Ok ps.
Proof.
  intros E complex names. induction names as [|n0 names IH]; intros params Hc Hov Hj; cbn [join_all]; [eauto|].
  destruct (map_get complex n0) as [values|] eqn:Hg.
  - pose proof Hc as [_ Hc2]. destruct (Hc2 n0 values Hg) as [V1 V2]. destruct (Hj n0 (or_introl eq_refl)) as [o Ho]. rewrite Hg in Ho. cbn in Ho.
    pose proof (Hov n0 (or_introl eq_refl)) as Hv. rewrite Hg in Hv. cbn in Hv.
    rewrite (join_segments_forward E values o) by auto. cbn [bind]. apply IH; auto; intros n Hn; [apply Hov|apply Hj]; now right.
  - apply IH; auto; intros n Hn; [apply Hov|apply Hj]; now right.
Qed.

(* what the specification needs: a value for every parameter *)
Definition params_defined (tc : charset_id -> bytes -> bytes) (raw : list param) : Prop := forall n, exists o, param_value tc raw n o.
Lemma params_value_defined : forall tc raw l, params_value tc raw l -> params_defined tc raw.
Proof. intros tc raw l H n. eauto. Qed.

Theorem collect_parameters_forward : forall E l, (forall x, Permutation (hash_order E x) x) -> Forall param_ok l ->
  (forall n, no_overflow E (segment l n)) -> params_defined (textcode E) l ->
  exists ps, collect_parameters E l = Ok ps /\ params_value (textcode E) l ps.
Proof.
  intros E l Hh Hl Hov Hv. pose proof (collect_parameters_sound E l Hh Hl) as Hs. revert Hs. unfold collect_parameters.
  pose proof (split_spec l l [] [] [] eq_refl Hl) as S. destruct (split_parameters l [] []) as [plain complex].
  destruct S as (S1 & S2 & S3); try (intros; reflexivity).
  { split; [constructor|]. intros n m H. discriminate. }
  destruct (join_all_forward E complex (hash_order E (map fst complex)) plain S1) as [ps Hps].
  - intros n _. unfold no_overflow in *. rewrite S3. apply Hov.
  - intros n _. destruct (Hv n) as [o Ho]. inversion Ho as [H0|s v cs r H0 H1 H2]; subst.
    + exists None. cbn. now rewrite S3.
    + exists (Some (v ++ r)). cbn. exists s, v, cs, r. rewrite S3. repeat split; auto. eapply tail_value_ext; [|exact H2]. intros. now rewrite S3.
  - rewrite Hps. cbn. eauto.
Qed.

(* two maps with the value of the same parameters have the same contents *)
Lemma tail_value_fun : forall E seg cs k r, (forall k s, seg k = Some s -> ascii (snd s)) -> tail_value (textcode E) seg cs k r ->
  forall r', tail_value (textcode E) seg cs k r' -> r = r'.
Proof.
  intros E seg cs k r Ha H. induction H as [k Hk|k s v r Hk Hn Hr IH]; intros r' H'; inversion H' as [k' Hk'|k' s' v' r'' Hk' Hn' Hr']; subst; try congruence.
  rewrite Hk in Hk'. inversion Hk'; subst s'. apply (next_value_forward E) in Hn, Hn'; eauto. rewrite Hn in Hn'. inversion Hn'. f_equal. now apply IH.
Qed.
Lemma segment_ascii : forall l n k s, Forall param_ok l -> segment l n k = Some s -> ascii (snd s).
Proof.
  intros l n k s H. unfold segment. induction H as [|[[[n' i] e] v] l [Ha _] Hl IH]; cbn [last_some]; [discriminate|].
  match goal with |- context [match ?x with _ => _ end = _ -> _] => destruct x end; [intros Hs; inversion Hs; subst; auto|].
  destruct (bytes_eqb n n'); [|discriminate]. destruct i as [k'|]; [|discriminate]. destruct (N.eqb_spec k k'); [|discriminate].
  intros Hs. inversion Hs. exact Ha.
Qed.
Lemma param_value_fun : forall E l n o o', Forall param_ok l -> param_value (textcode E) l n o -> param_value (textcode E) l n o' -> o = o'.
Proof.
  intros E l n o o' Hl H H'. inversion H as [H0|s v cs r H0 H1 H2]; subst; inversion H' as [H0'|s' v' cs' r' H0' H1' H2']; subst; try congruence.
  rewrite H0 in H0'. inversion H0'; subst s'. destruct (first_value_fun E s v cs v' cs') as [-> ->]; auto; [eapply segment_ascii; eauto|].
  do 2 f_equal. eapply tail_value_fun; [|exact H2|exact H2']. intros k s0 Hs. eapply segment_ascii; eauto.
Qed.
Lemma params_value_fun : forall E l ps ps', Forall param_ok l -> params_value (textcode E) l ps -> params_value (textcode E) l ps' ->
  forall n, map_get ps n = map_get ps' n.
Proof. intros E l ps ps' Hl H H' n. eapply param_value_fun; eauto. Qed.

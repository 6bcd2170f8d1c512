(* Reassembly of MIME parameters (percent_encoding.rs): soundness with respect to
   [params_value], independence of the hash-map order, and the values of split parameters. *)
From Coq Require Import ZArith Lia ZifyBool ZifyNat ZifyN Permutation.
From Verif Require Import Base Utf8 CharSets Combinators Charset Percent Envs
  Rfc5322 Rfc2047 CodecSpec RfcFields Post CodecArith Base64Proofs QPProofs PercentProofs SoundTime.
Local Open Scope N_scope.

(* the panic that a parameter with 256 segments causes in a checked build *)
Definition overflow (E : env) (c : crash) : Prop := debug E = true /\ c = Panic "attempt to add with overflow".

(* ---- association lists ---- *)
Lemma map_get_insert : forall V (m : list (bytes * V)) k v n,
  map_get (map_insert m k v) n = if bytes_eqb n k then Some v else map_get m n.
Proof.
  intros V m k v n. induction m as [|[k' v'] m IH]; cbn [map_insert map_get].
  - reflexivity.
  - destruct (bytes_eqb k k') eqn:Hk; cbn [map_get].
    + apply bytes_eqb_eq in Hk. subst k'. destruct (bytes_eqb n k); reflexivity.
    + rewrite IH. destruct (bytes_eqb n k') eqn:H1; auto. apply bytes_eqb_eq in H1. subst k'.
      destruct (bytes_eqb n k) eqn:H2; auto. apply bytes_eqb_eq in H2. subst. rewrite bytes_eqb_refl in Hk. discriminate.
Qed.
Lemma map_insert_keys : forall V (m : list (bytes * V)) k v n,
  In n (map fst (map_insert m k v)) <-> n = k \/ In n (map fst m).
Proof.
  intros V m k v n. induction m as [|[k' v'] m IH]; cbn [map_insert map fst In].
  - intuition.
  - destruct (bytes_eqb k k') eqn:Hk; cbn [map fst In].
    + apply bytes_eqb_eq in Hk. subst k'. intuition.
    + rewrite IH. intuition.
Qed.
Lemma map_insert_NoDup : forall V (m : list (bytes * V)) k v, NoDup (map fst m) -> NoDup (map fst (map_insert m k v)).
Proof.
  intros V m k v. induction m as [|[k' v'] m IH]; intros H; cbn [map_insert map fst].
  - repeat constructor. intros [].
  - inversion H; subst. destruct (bytes_eqb k k') eqn:Hk; cbn [map fst]; [now constructor|].
    constructor; auto. rewrite map_insert_keys. apply bytes_eqb_neq in Hk. intuition.
Qed.
Lemma map_get_none : forall V (m : list (bytes * V)) n, map_get m n = None <-> ~ In n (map fst m).
Proof.
  intros V m n. induction m as [|[k v] m IH]; cbn [map_get map fst In]; [tauto|].
  destruct (bytes_eqb n k) eqn:Hk.
  - apply bytes_eqb_eq in Hk. subst. split; [discriminate|tauto].
  - apply bytes_eqb_neq in Hk. rewrite IH. intuition.
Qed.

(* the same for maps from indexes *)
Fixpoint iget (m : list (N * (bool * bytes))) (k : N) : option (bool * bytes) :=
  match m with [] => None | (k', v) :: m' => if k =? k' then Some v else iget m' k end.
Lemma iget_insert : forall m k v n, iget (imap_insert m k v) n = if n =? k then Some v else iget m n.
Proof.
  intros m k v n. induction m as [|[k' v'] m IH]; cbn [imap_insert iget]; auto.
  destruct (N.eqb_spec k k'); cbn [iget].
  - subst k'. destruct (n =? k); reflexivity.
  - rewrite IH. destruct (N.eqb_spec n k'); auto. subst k'. destruct (N.eqb_spec n k); auto. now subst.
Qed.
Lemma imap_insert_keys : forall m k v n, In n (map fst (imap_insert m k v)) <-> n = k \/ In n (map fst m).
Proof.
  intros m k v n. induction m as [|[k' v'] m IH]; cbn [imap_insert map fst In]; [intuition|].
  destruct (N.eqb_spec k k'); cbn [map fst In].
  - subst k'. intuition.
  - rewrite IH. intuition.
Qed.
Lemma imap_insert_NoDup : forall m k v, NoDup (map fst m) -> NoDup (map fst (imap_insert m k v)).
Proof.
  intros m k v. induction m as [|[k' v'] m IH]; intros H; cbn [imap_insert map fst].
  - repeat constructor. intros [].
  - inversion H; subst. destruct (N.eqb_spec k k'); cbn [map fst]; [now constructor|].
    constructor; auto. rewrite imap_insert_keys. intuition.
Qed.
Lemma iget_none : forall m n, iget m n = None <-> ~ In n (map fst m).
Proof.
  intros m n. induction m as [|[k v] m IH]; cbn [iget map fst In]; [tauto|].
  destruct (N.eqb_spec n k).
  - subst. split; [discriminate|tauto].
  - rewrite IH. intuition.
Qed.
Lemma imap_remove_spec : forall m k, NoDup (map fst m) ->
  match imap_remove m k with
  | None => iget m k = None
  | Some (v, m') => iget m k = Some v /\ NoDup (map fst m') /\ length m = S (length m') /\
      (forall n, iget m' n = if n =? k then None else iget m n) /\ incl m' m
  end.
Proof.
  intros m k. induction m as [|[k' v'] m IH]; intros H; cbn [imap_remove iget]; auto. inversion H as [|? ? Hn Hm]; subst.
  destruct (N.eqb_spec k k').
  - subst k'. repeat split; auto.
    + intros n. destruct (N.eqb_spec n k); auto. subst. now apply iget_none.
    + intros x Hx. now right.
  - specialize (IH Hm). destruct (imap_remove m k) as [[v m']|]; auto. destruct IH as (I1 & I2 & I3 & I4 & I5).
    repeat split; auto.
    + cbn [map fst]. constructor; auto. intros Hc. apply Hn. apply in_map_iff in Hc as (x & Hx & Hc). apply in_map_iff.
      exists x. split; auto.
    + cbn [length]. lia.
    + intros n'. cbn [iget]. rewrite I4. destruct (N.eqb_spec n' k'), (N.eqb_spec n' k); auto; lia.
    + intros x [<-|Hx]; [now left|right; auto].
Qed.

(* ---- splitting ---- *)
Definition default_map (o : option (list (N * (bool * bytes)))) := match o with Some m => m | None => [] end.
Lemma last_some_app : forall A B (f : A -> option B) l x, last_some f (l ++ [x]) = match f x with Some b => Some b | None => last_some f l end.
Proof.
  intros A B f l x. induction l as [|y l IH]; cbn [app last_some].
  - destruct (f x); reflexivity.
  - rewrite IH. destruct (f x); reflexivity.
Qed.

(* the parameters that the parser can produce *)
Definition param_ok (p : param) : Prop :=
  let '(n, i, e, v) := p in ascii v /\ match i with Some k => k < 256 | None => True end.
Definition seg_ok (x : N * (bool * bytes)) : Prop := fst x < 256 /\ ascii (snd (snd x)).
Definition complex_ok (c : list (bytes * list (N * (bool * bytes)))) : Prop :=
  NoDup (map fst c) /\ forall n m, map_get c n = Some m -> NoDup (map fst m) /\ Forall seg_ok m.

Lemma imap_insert_ok : forall m k v, Forall seg_ok m -> seg_ok (k, v) -> Forall seg_ok (imap_insert m k v).
Proof.
  intros m k v H Hv. induction H as [|[k' v'] m H1 H2 IH]; cbn [imap_insert]; auto.
  destruct (N.eqb_spec k k'); constructor; auto. now subst.
Qed.

Lemma split_spec : forall l full done plain complex, full = done ++ l -> Forall param_ok l -> complex_ok complex ->
  (forall n, map_get plain n = plain_value done n) ->
  (forall n k, iget (default_map (map_get complex n)) k = segment done n k) ->
  let (plain', complex') := split_parameters l plain complex in
  complex_ok complex' /\
  (forall n, map_get plain' n = plain_value full n) /\
  (forall n k, iget (default_map (map_get complex' n)) k = segment full n k).
Proof.
  induction l as [|[[[n0 i0] e0] v0] l IH]; intros full done plain complex Hf Hl Hc Hp Hs; cbn [split_parameters].
  - rewrite app_nil_r in Hf. subst. auto.
  - inversion Hl as [|? ? Hv Hl']; subst. cbn in Hv. destruct Hv as [Hv Hi].
    assert (Hf : done ++ (n0, i0, e0, v0) :: l = (done ++ [(n0, i0, e0, v0)]) ++ l) by (rewrite <- app_assoc; reflexivity).
    destruct i0 as [k0|]; apply (IH _ _ _ _ Hf); auto; clear Hf.
    + (* indexed *) destruct Hc as [Hc1 Hc2]. split; [now apply map_insert_NoDup|]. intros n m. rewrite map_get_insert.
      destruct (bytes_eqb n n0) eqn:Hn; [|apply Hc2]. intros Hm. inversion Hm; subst m. clear Hm.
      assert (G : NoDup (map fst (default_map (map_get complex n0))) /\ Forall seg_ok (default_map (map_get complex n0))).
      { destruct (map_get complex n0) eqn:Hg; cbn; [now apply (Hc2 n0)|split; constructor]. }
      destruct G as [G1 G2]. split; [now apply imap_insert_NoDup|]. apply imap_insert_ok; auto. split; auto.
    + intros n. rewrite Hp. unfold plain_value. rewrite last_some_app. destruct (bytes_eqb n n0); reflexivity.
    + intros n k. rewrite map_get_insert. unfold segment. rewrite last_some_app. destruct (bytes_eqb n n0) eqn:Hn.
      * apply bytes_eqb_eq in Hn. subst n0. cbn [default_map]. rewrite iget_insert. destruct (k =? k0); auto. apply Hs.
      * apply Hs.
    + (* plain *) intros n. rewrite map_get_insert, Hp. unfold plain_value. rewrite last_some_app. destruct (bytes_eqb n n0); reflexivity.
    + intros n k. rewrite Hs. unfold segment. rewrite last_some_app. destruct (bytes_eqb n n0); reflexivity.
Qed.

(* ---- decoding one segment ---- *)
Lemma decode_parameter_sound : forall E K v cs, ascii v ->
  ppost K (decode_parameter E v cs) (fun d => ext_text (textcode E) cs v d).
Proof.
  intros E K v cs Hv. destruct (find_charset cs) as [k|] eqn:Hk.
  - rewrite (decode_parameter_spec E v cs k Hk). destruct (decode_charset_no_crash E k (rtl v)) as [[d Hd]|Hd]; rewrite Hd; [|exact I].
    cbn. apply ext_known. now apply (charset_value_ok E cs k).
  - rewrite decode_parameter_unknown by auto. rewrite str_unchecked_ascii by auto. cbn. apply ext_unknown.
    intros Hin. apply charset_names_find in Hin as [k Hk']. congruence.
Qed.

Lemma take_until_quote : forall K v, ascii v ->
  post K (take_while (fun c => negb (c =? 39)) v) v (fun c x => x = c /\ ~ In 39 c).
Proof.
  intros K v Hv. unfold take_while. destruct (span _ v) as [a b] eqn:Hs. apply span_spec in Hs as (-> & Ha & _).
  rewrite str_unchecked_ascii by (apply Forall_app in Hv; tauto). exists a. split; auto. split; auto.
  intros Hin. rewrite Forall_forall in Ha. apply Ha in Hin. discriminate.
Qed.

Lemma first_segment_sound : forall E K e v, ascii v ->
  ppost K (first_segment E e v) (fun '(d, cs) => first_value (textcode E) (e, v) d cs).
Proof.
  intros E K e v Hv. unfold first_segment. destruct e; [|cbn; constructor].
  eapply ppost_bind_post; [now apply (take_until_quote K)|]. intros cs r x -> [-> Hcs]. cbn beta iota.
  apply Forall_app in Hv as [Hcsa Hr]. eapply ppost_bind_post; [apply post_tag|]. intros q r1 [] -> ->. cbn beta iota.
  apply Forall_app in Hr as [_ Hr]. eapply ppost_bind_post; [now apply (take_until_quote K)|]. intros lang r2 x -> [-> Hl]. cbn beta iota.
  apply Forall_app in Hr as [Hla Hr]. eapply ppost_bind_post; [apply post_tag|]. intros q r3 [] -> ->. cbn beta iota.
  apply Forall_app in Hr as [_ Hr]. eapply ppost_bind; [now apply (decode_parameter_sound E K)|]. intros d Hd. cbn beta in Hd.
  rewrite lowercase_fold in *. cbn. now constructor.
Qed.

(* ---- the following segments ---- *)
Lemma iget_ok : forall m k s, Forall seg_ok m -> iget m k = Some s -> k < 256 /\ ascii (snd s).
Proof.
  intros m k s H. induction H as [|[k' v'] m [H1 H2] Hm IH]; cbn [iget]; [discriminate|].
  destruct (N.eqb_spec k k'); auto. intros Hs. inversion Hs; subst. auto.
Qed.
Lemma Forall_incl : forall A (P : A -> Prop) l l', incl l' l -> Forall P l -> Forall P l'.
Proof. intros A P l l' Hi H. rewrite Forall_forall in *. auto. Qed.

Lemma next_segments_sound : forall E seg cs n values idx value,
  (length values < n)%nat -> NoDup (map fst values) -> Forall seg_ok values -> idx < 256 -> idx <> 0 ->
  (forall k, iget values k = if k <? idx then None else seg k) ->
  (forall k s, seg k = Some s -> k < 256) ->
  ppost (overflow E) (next_segments E n values cs idx value)
    (fun v => exists r, v = value ++ r /\ tail_value (textcode E) seg cs idx r).
Proof.
  intros E seg cs n. induction n as [|n IH]; intros values idx value Hn Hd Hok Hi Hi0 Hv Hseg; [lia|]. cbn [next_segments].
  pose proof (imap_remove_spec values idx Hd) as R. destruct (imap_remove values idx) as [[[e nv] values']|].
  - destruct R as (R1 & R2 & R3 & R4 & R5). pose proof (iget_ok _ _ _ Hok R1) as [_ Ha]. cbn in Ha.
    assert (Hs : seg idx = Some (e, nv)). { rewrite <- R1, Hv. destruct (N.ltb_spec idx idx); [lia|reflexivity]. }
    assert (Hok' : Forall seg_ok values') by (eapply Forall_incl; eauto).
    eapply ppost_bind with (P := fun v => exists d, v = value ++ d /\ next_value (textcode E) cs (e, nv) d).
    { destruct e, cs as [c|]; cbn [bind].
      - eapply ppost_bind; [now apply (decode_parameter_sound E)|]. intros d Hd'. cbn. exists d. split; auto. now apply (next_ext _ _ c).
      - cbn. exists nv. split; auto. now apply next_no_charset.
      - cbn. exists nv. split; auto. constructor.
      - cbn. exists nv. split; auto. constructor. }
    intros v (d & -> & Hnv). unfold u8_add. destruct (N.ltb_spec (idx + 1) 256) as [Hlt|Hge].
    + cbn [bind]. eapply ppost_weaken.
      * apply IH with (idx := idx + 1); auto; try lia. intros k. rewrite R4, Hv.
        destruct (N.eqb_spec k idx), (N.ltb_spec k idx), (N.ltb_spec k (idx + 1)); auto; lia.
      * intros v (r & -> & Hr). exists (d ++ r). rewrite app_assoc. split; auto. eapply tail_more; eauto.
    + destruct (debug E) eqn:Hdb; cbn [bind]; [split; auto|]. replace ((idx + 1) mod 256) with 0 by (replace (idx + 1) with 256 by lia; reflexivity).
      destruct n as [|n]; [lia|]. cbn [next_segments]. pose proof (imap_remove_spec values' 0 R2) as R'.
      assert (Z : iget values' 0 = None). { rewrite R4, Hv. destruct (N.eqb_spec 0 idx), (N.ltb_spec 0 idx); auto; lia. }
      destruct (imap_remove values' 0) as [[? ?]|]; [destruct R' as [R' _]; congruence|]. cbn.
      exists d. split; auto. rewrite <- (app_nil_r d). eapply tail_more; eauto. apply tail_end.
      destruct (seg (idx + 1)) eqn:Hx; auto. apply Hseg in Hx. lia.
  - cbn. exists []. rewrite app_nil_r. split; auto. apply tail_end. rewrite Hv in R. destruct (N.ltb_spec idx idx); [lia|auto].
Qed.

Definition joined (tc : charset_id -> bytes -> bytes) (seg : N -> option (bool * bytes)) (o : option bytes) : Prop :=
  match o with
  | None => seg 0 = None
  | Some x => exists s v cs r, seg 0 = Some s /\ first_value tc s v cs /\ tail_value tc seg cs 1 r /\ x = v ++ r
  end.
Lemma join_segments_sound : forall E values, NoDup (map fst values) -> Forall seg_ok values ->
  ppost (overflow E) (join_segments E values) (joined (textcode E) (iget values)).
Proof.
  intros E values Hd Hok. unfold join_segments. pose proof (imap_remove_spec values 0 Hd) as R.
  destruct (imap_remove values 0) as [[[e v] values']|]; [|exact R]. destruct R as (R1 & R2 & R3 & R4 & R5).
  pose proof (iget_ok _ _ _ Hok R1) as [_ Ha]. cbn in Ha.
  eapply ppost_bind; [now apply (first_segment_sound E)|]. intros [d cs] Hf.
  eapply ppost_bind.
  { apply (next_segments_sound E (iget values)); auto; try lia.
    - eapply Forall_incl; eauto.
    - intros k. rewrite R4. destruct (N.eqb_spec k 0), (N.ltb_spec k 1); auto; lia.
    - intros k s Hs. now apply (iget_ok _ _ _ Hok) in Hs. }
  intros x (r & -> & Hr). cbn. exists (e, v), d, cs, r. auto.
Qed.

(* ---- all names ---- *)
Lemma join_all_sound : forall E complex names params, complex_ok complex -> NoDup names ->
  (forall n, In n names -> In n (map fst complex)) ->
  ppost (overflow E) (join_all E names complex params) (fun ps =>
    forall n, (In n names -> exists o, joined (textcode E) (iget (default_map (map_get complex n))) o /\
                 map_get ps n = match o with Some v => Some v | None => map_get params n end) /\
              (~ In n names -> map_get ps n = map_get params n)).
Proof.
  intros E complex names. induction names as [|n0 names IH]; intros params Hc Hd Hin; cbn [join_all].
  - cbn. intros n. split; [intros []|auto].
  - inversion Hd as [|? ? Hn0 Hd']; subst. destruct (map_get complex n0) as [values|] eqn:Hg.
    + pose proof Hc as [_ Hc2]. destruct (Hc2 n0 values Hg) as [V1 V2].
      eapply ppost_bind; [now apply (join_segments_sound E)|]. intros o Ho. cbv beta in Ho.
      eapply ppost_weaken; [apply IH; auto; intros n Hn; apply Hin; now right|].
      intros ps Hps n. cbn beta in Hps. destruct (Hps n) as [P1 P2]. split.
      * intros [->|Hn].
        -- exists o. rewrite Hg. split; auto. rewrite P2 by auto. destruct o as [v|]; auto. rewrite map_get_insert, bytes_eqb_refl. reflexivity.
        -- destruct (P1 Hn) as (o' & J & ->). exists o'. split; auto. destruct o' as [v'|]; auto. destruct o as [v|]; auto.
           rewrite map_get_insert. destruct (bytes_eqb n n0) eqn:He; auto. apply bytes_eqb_eq in He. now subst.
      * intros Hn. cbn [In] in Hn. rewrite P2 by tauto. destruct o as [v|]; auto. rewrite map_get_insert.
        destruct (bytes_eqb n n0) eqn:He; auto. apply bytes_eqb_eq in He. subst. tauto.
    + apply map_get_none in Hg. exfalso. apply Hg, Hin. now left.
Qed.

(* segments are looked up through an extensional function *)
Lemma tail_value_ext : forall tc seg seg' cs k r, (forall n, seg n = seg' n) -> tail_value tc seg cs k r -> tail_value tc seg' cs k r.
Proof. intros tc seg seg' cs k r He H. induction H; [apply tail_end|eapply tail_more]; eauto; rewrite <- He; auto. Qed.
Lemma segment_bound : forall l n k s, Forall param_ok l -> segment l n k = Some s -> k < 256.
Proof.
  intros l n k s H. unfold segment. induction H as [|[[[n' i] e] v] l [_ Hi] Hl IH]; cbn [last_some]; [discriminate|].
  match goal with |- context [match ?x with _ => _ end = _ -> _] => destruct x end; [intros Hs; inversion Hs; subst; auto|].
  destruct (bytes_eqb n n'); [|discriminate]. destruct i as [k'|]; [|discriminate]. destruct (N.eqb_spec k k'); [|discriminate]. now subst.
Qed.

Theorem collect_parameters_sound : forall E l, (forall x, Permutation (hash_order E x) x) -> Forall param_ok l ->
  ppost (overflow E) (collect_parameters E l) (params_value (textcode E) l).
Proof.
  intros E l Hh Hl. unfold collect_parameters.
  pose proof (split_spec l l [] [] [] eq_refl Hl) as S. destruct (split_parameters l [] []) as [plain complex].
  destruct S as (S1 & S2 & S3); try (intros; reflexivity).
  { split; [constructor|]. intros n m H. discriminate. }
  eapply ppost_weaken.
  - apply (join_all_sound E complex); auto.
    + eapply Permutation_NoDup; [apply Permutation_sym, Hh|]. now destruct S1.
    + intros n Hn. eapply Permutation_in; [apply Hh|exact Hn].
  - intros ps Hps n. destruct (Hps n) as [P1 P2]. clear Hps.
    destruct (in_dec (list_eq_dec N.eq_dec) n (map fst complex)) as [Hin|Hin].
    + destruct P1 as (o & J & ->). { eapply Permutation_in; [apply Permutation_sym, Hh|exact Hin]. }
      destruct o as [x|].
      * destruct J as (s & v & cs & r & J1 & J2 & J3 & ->). rewrite S3 in J1. eapply value_segments; eauto.
        eapply tail_value_ext; [|exact J3]. intros. apply S3.
      * rewrite S2. apply value_plain. cbn in J. now rewrite S3 in J.
    + rewrite P2, S2. 2: { intros Hn. apply Hin. eapply Permutation_in; [apply Hh|exact Hn]. }
      apply value_plain. rewrite <- S3. replace (map_get complex n) with (@None (list (N * (bool * bytes)))); [reflexivity|].
      symmetry. now apply map_get_none.
Qed.

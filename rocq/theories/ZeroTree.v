(* The entities in an entity as slices. *)
From Verif Require Import Base Utf8 CharSets Combinators StringCow StringSpec Base64 QuotedPrintable Charset Time Address Percent MimeFields Fields Message Entity Email Envs Utf8Facts StringFacts ZeroCopy ZeroSpec ZeroFacts ZeroStrings ZeroExact ZeroParts ZeroPartsSpec ZeroPartsFacts RfcFields EntitySpec.
From Verif Require Post PercentProofs ParamProofs EntityProofs LinedFacts LocalFacts.
From Coq Require Import Lia Bool.

Lemma map_get_like : forall V W (lo : cow -> bytes -> Prop) (R : V -> W -> Prop) l l' k, like_map lo R l l' -> like_option (fun x y => R (snd x) y) (map_get l k) (map_get l' k).
Proof.
  intros V W lo R l l' k H. induction H as [|[k1 [c1 v1]] [k2 w2] l l' (E1 & E2 & E3) H IH]; cbn [map_get]; [exact I|]. cbn in E1, E2, E3. subst k2. destruct (bytes_eqb k k1); [exact E3|exact IH].
Qed.
Lemma text_contents : forall m c v, StringSpec.is_text m c v -> contents m c = Ok v.
Proof. intros m c v [_ H]. assert (B : is_bytes m c v) by (destruct c; exact H). exact (bytes_contents {| memory := m; base := 0; total := 0; literal := 0 |} _ _ B). Qed.
Lemma slice_in_mono : forall a b a' b' c, (a' <= a)%N -> (b <= b')%N -> slice_in a b c -> slice_in a' b' c.
Proof. intros a b a' b' [p n|s] H1 H2 H; [|exact I]. cbn in *. destruct H as [H|[H H']]; [now left|right; lia]. Qed.

Section Tree.
Variables (m : mem) (lit : literals) (E : env).
Hypothesis HK : env_ok E.
Hypothesis HM : f_mime E = true.
Hypothesis HL : loaded m lit.
Notation place_of := (at_place m lit).

(* a part of the input D at p *)
Definition part_at (p : N) (D : bytes) (x : N * bytes) (v : bytes) : Prop :=
  snd x = v /\ at_address m (fst x) v /\ (p <= fst x)%N /\ (fst x + N.of_nat (length v) <= p + N.of_nat (length D))%N.
Lemma prefix_part : forall p D i v w, at_address m p D -> tail D i -> i = v ++ w -> part_at p D (here (place_of p D) i, v) v.
Proof.
  intros p D i v w HA [a ->] ->. unfold part_at, here. cbn [fst snd at_place base total]. rewrite !app_length. replace (length a + (length v + length w) - (length v + length w)) with (length a) by lia.
  split; [reflexivity|]. split; [|split; lia]. intros k b Hk. rewrite <- (HA (length a + k) b); [f_equal; lia|]. rewrite nth_error_app2 by lia. replace (length a + k - length a) with k by lia. rewrite nth_error_app1; [exact Hk|]. apply nth_error_Some. congruence.
Qed.
Lemma cut_cuts : forall i n k r v, unchecked_from i (n + k) = Ok r -> unchecked_to i n = Ok v -> after i r /\ exists w, i = v ++ w.
Proof.
  intros i n k r v H1 H2. unfold unchecked_from, unchecked_to in *. destruct (Nat.ltb_spec (length i) (n + k)); [discriminate|]. destruct (Nat.ltb_spec (length i) n); [discriminate|]. injection H1 as <-. injection H2 as <-. split; [exists (firstn (n + k) i)|exists (skipn n i)]; now rewrite firstn_skipn.
Qed.
Lemma before_does : forall p D b, at_address m p D -> does D (z_before_boundary (place_of p D) b) (before_boundary b) (fun i j => part_at p D).
Proof.
  intros p D b HA i Hi. unfold z_before_boundary. destruct (before_boundary b i) as [[r v]|e|c] eqn:EB; [|reflexivity..]. cbn [bind rel]. unfold before_boundary in EB. destruct (before_boundary_idx i b) as [[n k]|e|c]; try discriminate. cbn [bind] in EB.
  destruct (unchecked_from i (n + k)) as [r'|e|c] eqn:E1; try discriminate. cbn [bind] in EB. destruct (unchecked_to i n) as [v'|e|c] eqn:E2; try discriminate. injection EB as <- <-. destruct (cut_cuts _ _ _ _ _ E1 E2) as [H1 [w H2]].
  split; [reflexivity|]. split; [exact H1|]. exact (prefix_part _ _ _ _ w HA Hi H2).
Qed.
Lemma closing_does : forall p D b, at_address m p D -> does D (z_before_closing_boundary (place_of p D) b) (before_closing_boundary b) (fun i j => part_at p D).
Proof.
  intros p D b HA i Hi. unfold z_before_closing_boundary. destruct (before_closing_boundary b i) as [[r v]|e|c] eqn:EB; [|reflexivity..]. cbn [bind rel]. unfold before_closing_boundary in EB. destruct (find_closing (length i) 0 i b) as [n|]; try discriminate. cbn [bind ok_or] in EB.
  destruct (unchecked_from i (n + _)) as [r'|e|c] eqn:E1; try discriminate. cbn [bind] in EB. destruct (unchecked_to i n) as [v'|e|c] eqn:E2; try discriminate. injection EB as <- <-. destruct (cut_cuts _ _ _ _ _ E1 E2) as [H1 [w H2]].
  split; [reflexivity|]. split; [exact H1|]. exact (prefix_part _ _ _ _ w HA Hi H2).
Qed.
Definition part_like_in (p : N) (D : bytes) : z_raw_entity_t -> raw_entity_t -> Prop := like_entity (text_ok (place_of p D) D) (fixed_ok (place_of p D) D) (loose_ok (place_of p D) D lit) (raw_ok (place_of p D) D).
Lemma none_quiet : forall (P : Prop) (D a w j : bytes), D = a ++ w ++ j -> S (length D) <= length j -> P.
Proof. intros P D a w j -> H. rewrite !app_length in H. lia. Qed.
Lemma raw_part : forall h p D, at_address m p D -> rel (part_like_in p D) (z_raw_entity m lit h E (Borrowed p (length D))) (raw_entity E D).
Proof.
  intros h p D HA. eapply rel_weaken; [|exact (raw_borrowed m lit E HK HM HL h p D (S (length D)) True HA (fun a w j => none_quiet _ D a w j) (fun _ a w j => none_quiet _ D a w j))]. intros a b [H _]. exact H.
Qed.
Lemma part_inside : forall p D x v, part_at p D x v -> forall a b, part_like_in (fst x) v a b -> part_like_in p D a b.
Proof.
  intros p D x v (_ & _ & H1 & H2) a b. apply like_entity_mono.
  - intros c s [T S]. split; [exact T|]. exact (slice_in_mono _ _ _ _ _ H1 H2 S).
  - intros c s [[T S] B]. split; [split; [exact T|]|exact B]. exact (slice_in_mono _ _ _ _ _ H1 H2 S).
  - intros c s [T [S|S]]; (split; [exact T|]); [left|now right]. exact (slice_in_mono _ _ _ _ _ H1 H2 S).
  - intros c s [T S]. split; [exact T|]. exact (slice_in_mono _ _ _ _ _ H1 H2 S).
Qed.
Lemma raw_parts_does : forall p D l l', Forall2 (part_at p D) l l' -> rel (Forall2 (part_like_in p D)) (z_raw_entities m lit E l) (raw_entities E l').
Proof.
  intros p D l l' H. induction H as [|[a w] v l l' HP H IH]; [constructor|]. cbn [z_raw_entities raw_entities]. pose proof HP as (HV & HA & _). cbn [fst snd] in HV, HA. subst w.
  eapply rel_bind; [exact (raw_part 0%N a v HA)|]. intros x y Hxy. eapply rel_bind; [exact IH|]. intros xs ys Hs. constructor; [exact (part_inside _ _ _ _ HP _ _ Hxy)|exact Hs].
Qed.
Lemma remove_does : forall A B (R : A -> B -> Prop) l l', Forall2 R l l' -> rel (fun x y => Forall2 R (snd x) (snd y)) (vec_remove l 0) (vec_remove l' 0).
Proof. intros A B R l l' H. destruct H as [|a b l l' H1 H]; [reflexivity|]. exact H. Qed.
Lemma multipart_does : forall p D (lo : cow -> bytes -> Prop) ps ps', at_address m p D -> like_map lo (StringSpec.is_text m) ps ps' -> rel (Forall2 (part_like_in p D)) (z_parse_multipart m lit E p D ps) (parse_multipart E D ps').
Proof.
  intros p D lo ps ps' HA HP. unfold z_parse_multipart, parse_multipart. fold (place_of p D). pose proof (map_get_like _ _ _ _ _ _ (bs "boundary") HP) as HB.
  destruct (map_get ps (bs "boundary")) as [[kc c]|], (map_get ps' (bs "boundary")) as [v|]; try contradiction; [|reflexivity]. cbn [like_option snd] in HB. cbn [ok_or bind snd]. rewrite (text_contents _ _ _ HB). cbn [bind].
  eapply bind_p; [apply many_does, (before_does p D v HA)|apply after_refl|]. intros i l l' Hi _ HC. cbn beta iota. apply chain_forall in HC. eapply bind_p; [apply (closing_does p D v HA)|exact Hi|]. intros j x y Hj _ HX. cbn beta iota.
  eapply rel_bind; [apply (remove_does _ _ (part_at p D)); apply Forall2_app; [exact HC|constructor; [exact HX|constructor]]|]. intros [u us] [w ws] HU. exact (raw_parts_does _ _ _ _ HU).
Qed.
Definition is_t := StringSpec.is_text m.
Lemma part_plain : forall p D a b, part_like_in p D a b -> like_entity is_t is_t is_t (is_bytes m) a b.
Proof. intros p D a b. apply like_entity_mono; [intros c v []; assumption|intros c v [[] ?]; assumption|intros c v []; assumption|intros c v []; assumption]. Qed.
(* the parser of an entity returns the same *)
Lemma entity_same : forall h r e, like_entity is_t is_t is_t (held m h) r e -> rel (like_result is_t is_t is_t (is_bytes m)) (z_entity m lit h E r) (entity E e).
Proof.
  intros h r e []. unfold z_entity, entity. pose proof (held_contents _ _ _ _ lr_value) as HV. pose proof (held_at _ _ _ _ lr_value) as HA.
  destruct (zr_type r) as [t|c], (e_mime_type e); cbn [like_type] in lr_type; try contradiction; try subst t; try discriminate; try exact I.
  - rewrite HV. cbn [bind]. pose proof (map_get_like _ _ _ _ _ _ (bs "charset") lr_parameters) as HC.
    destruct (map_get (zr_parameters r) (bs "charset")) as [[kc c]|], (map_get (e_parameters e) (bs "charset")) as [v|]; try contradiction; [|exact I]. cbn [like_option snd] in HC. rewrite (text_contents _ _ _ HC). cbn [bind].
    destruct (find_charset (lowercase v)) as [k|]; [|exact I]. destruct k as [|x]; cbn [decode_charset].
    + unfold str_checked. destruct (utf8_valid (e_value e)) eqn:U; [|reflexivity]. cbn. split; [assumption|]. split; [exact U|]. split; [reflexivity|exact HA].
    + cbn. split; [assumption|]. split; [exact (ok_textcode E HK _ _)|reflexivity].
  - rewrite HV. cbn [bind]. eapply rel_bind; [exact (multipart_does _ _ _ _ _ HA lr_parameters)|]. intros x y Hxy. cbn. split; [assumption|].
    induction Hxy as [|a b l l' H1 H IH]; constructor; [exact (part_plain _ _ _ _ H1)|exact IH].
Qed.
(* the parser of the headers and the value of an entity returns the same *)
Lemma raw_same : forall h c D, held m h c D -> rel (like_entity is_t is_t is_t (is_bytes m)) (z_raw_entity m lit h E c) (raw_entity E D).
Proof.
  intros h [p n|s] D [H1 H2].
  - destruct H1 as [<- HA]. eapply rel_weaken; [|exact (raw_part h p D HA)]. apply part_plain.
  - cbn in H1. subst s. eapply rel_weaken; [|exact (raw_owned m lit E HK HM HL h D H2)]. intros a b. apply like_entity_mono; [intros c v [U ->]; now split..|intros c v ->; reflexivity].
Qed.
(* where the strings of a part are *)
Definition inside (p : N) (n : nat) (k : kind) (c : cow) : Prop := (slice_in p (p + N.of_nat n) c \/ k = Loose /\ is_literal lit c) /\ (k = Fixed -> is_borrowed c).
Lemma part_inside_of : forall p D a b, part_like_in p D a b -> forall k c, In (k, c) (of_entity a) -> inside p (length D) k c.
Proof.
  intros p D a b H k c Hin. apply (covers_entity _ (fun _ _ => False)) in H. destruct (covers_in _ _ _ _ _ _ _ _ H Hin) as [v Hv].
  destruct k; cbn in Hv; [split; [left; apply Hv|discriminate]|contradiction| | |].
  - destruct Hv as [[_ Hs] Hb]. split; [now left|now intros _].
  - destruct Hv as [_ [Hs|Hs]]; (split; [|discriminate]); [now left|right; now split].
  - split; [left; apply Hv|discriminate].
Qed.
Lemma entity_parts : forall h r e s parts, like_entity is_t is_t is_t (held m h) r e -> z_entity m lit h E r = Ok (ZEMultipart s parts) ->
  exists l, Forall2 (part_like_in (address_of h (zr_value r)) (e_value e)) parts l.
Proof.
  intros h r e s parts H Z. pose proof (held_contents _ _ _ _ (lr_value _ _ _ _ _ _ H)) as HV. pose proof (held_at _ _ _ _ (lr_value _ _ _ _ _ _ H)) as HA. unfold z_entity in Z.
  destruct (zr_type r) as [[]|]; try discriminate.
  - destruct (map_get _ _) as [[kc c]|]; try discriminate. destruct (contents m c); try discriminate. cbn [bind] in Z. destruct (find_charset _); try discriminate. rewrite HV in Z. cbn [bind] in Z. destruct (decode_charset _ _ _); discriminate.
  - rewrite HV in Z. cbn [bind] in Z. pose proof (multipart_does _ _ _ _ _ HA (lr_parameters _ _ _ _ _ _ H)) as P. destruct (z_parse_multipart _ _ _ _ _ _) as [x|x|x]; try discriminate. cbn [bind] in Z. injection Z as <- <-. destruct (parse_multipart _ _ _); try contradiction. eauto.
Qed.
Lemma forall2_in : forall A B (R : A -> B -> Prop) l l' x, Forall2 R l l' -> In x l -> exists y, R x y.
Proof. intros A B R l l' x H. induction H as [|a b l l' H1 H IH]; [easy|]. intros [<-|Hin]; [eauto|auto]. Qed.
Lemma parts_within : forall h r e s parts, like_entity is_t is_t is_t (held m h) r e -> z_entity m lit h E r = Ok (ZEMultipart s parts) ->
  forall x k c, In x parts -> In (k, c) (of_entity x) -> inside (address_of h (zr_value r)) (length (e_value e)) k c.
Proof. intros h r e s parts H Z x k c Hx Hin. destruct (entity_parts _ _ _ _ _ H Z) as [l HF]. destruct (forall2_in _ _ _ _ _ _ HF Hx) as [y Hy]. exact (part_inside_of _ _ _ _ Hy _ _ Hin). Qed.
(* an owned input: no string is a slice *)
Lemma owned_copies : forall h D r, at_address m h D -> z_raw_entity m lit h E (Owned D) = Ok r -> forall k c, In (k, c) (of_entity r) -> ~ is_borrowed c.
Proof.
  intros h D r HA Z k c Hin. pose proof (raw_owned m lit E HK HM HL h D HA) as H. rewrite Z in H. destruct (raw_entity E D); try contradiction. cbn [rel] in H. apply (covers_entity _ (fun _ _ => False)) in H. destruct (covers_in _ _ _ _ _ _ _ _ H Hin) as [v Hv].
  destruct k; cbn in Hv; [destruct Hv as [_ ->]|contradiction|destruct Hv as [_ ->]|destruct Hv as [_ ->]|unfold own_bytes in Hv; subst c]; exact (fun x => x).
Qed.
(* an entity in an entity that has not been copied *)
Lemma slice_trans : forall lo hi q n c, slice_in lo hi (Borrowed q n) -> slice_in q (q + N.of_nat n) c -> slice_in lo hi c.
Proof. intros lo hi q n [p k|s] H1 H2; [|exact I]. cbn in *. destruct H2 as [H2|H2]; [now left|]. destruct H1 as [->|H1]; [left; lia|right; lia]. Qed.
Lemma nested_like : forall x y, nested m lit E x y -> forall p D e, part_like_in p D x e -> exists e', part_like_in p D y e'.
Proof.
  intros x y H. induction H as [x|h x s parts y z HB Z Hin H IH]; intros p D e HX; [eauto|].
  assert (HX' : like_entity is_t is_t is_t (held m h) x e).
  { pose proof (part_plain _ _ _ _ HX) as P. destruct P. constructor; try assumption. split; [assumption|]. destruct (zr_value x); [exact I|contradiction]. }
  destruct (entity_parts _ _ _ _ _ HX' Z) as [l HF]. destruct (forall2_in _ _ _ _ _ _ HF Hin) as [e' He']. apply (IH p D e'). pose proof (lr_value _ _ _ _ _ _ HX) as [HV1 HV2].
  destruct (zr_value x) as [q n|]; [|contradiction]. cbn [address_of] in He'. destruct HV1 as [HV1 _]. revert He'. apply like_entity_mono.
  - intros c v [T S]. split; [exact T|]. cbn [at_place base] in S. rewrite HV1 in S. exact (slice_trans _ _ _ _ _ HV2 S).
  - intros c v [[T S] B]. split; [split; [exact T|]|exact B]. cbn [at_place base] in S. rewrite HV1 in S. exact (slice_trans _ _ _ _ _ HV2 S).
  - intros c v [T [S|S]]; (split; [exact T|]); [left|now right]. cbn [at_place base] in S. rewrite HV1 in S. exact (slice_trans _ _ _ _ _ HV2 S).
  - intros c v [T S]. split; [exact T|]. cbn [at_place base] in S. rewrite HV1 in S. exact (slice_trans _ _ _ _ _ HV2 S).
Qed.
Lemma mail_within : forall p D z r x, at_address m p D -> z_parse m p lit E D = Ok z -> ze_entity z = Some r -> nested m lit E r x ->
  forall k c, In (k, c) (of_entity x) -> inside p (length D) k c.
Proof.
  intros p D z r x HA Z R HN k c Hin. assert (H := parse_does m p lit E D HK HA HL (S (length D)) True (fun a w j => none_quiet _ D a w j) (fun _ a w j => none_quiet _ D a w j)).
  rewrite Z in H. destruct (parse E D) as [e|?|?]; try contradiction. destruct H as [H _]. pose proof (like_mime _ _ _ _ _ _ _ H) as HR. rewrite R in HR. destruct (mime_entity e) as [e'|]; [|contradiction]. cbn [like_option] in HR.
  destruct (nested_like _ _ HN p D e' HR) as [e2 H2]. exact (part_inside_of _ _ _ _ H2 _ _ Hin).
Qed.
(* quiet headers *)
Lemma part_rest : forall D r, raw_entity E D = Ok r -> exists c j hs, many (entity_header_parser E) D = Ok (j, hs) /\ D = c ++ j /\ headers_of D c.
Proof.
  intros D r H. unfold raw_entity, header_part in H.
  pose proof (Post.post_many _ (ParamProofs.overflow E) (entity_header_parser E) (part_header E) D (EntityProofs.part_header_nonempty E) (fun j => EntityProofs.sound_entity_header E j (ok_hash E HK))) as S.
  destruct (many (entity_header_parser E) D) as [[j hs]|x|x]; try discriminate. destruct S as (c & EC & S). exists c, j, hs. split; [reflexivity|]. split; [exact EC|]. cbn [bind] in H.
  assert (B : j = [] \/ exists x, j = CRLF ++ x). { destruct j as [|y j]; [now left|right]. destruct (tag _ _ _) as [[j' u]|x|x] eqn:T; try discriminate. apply tag_ok in T. eauto. }
  assert (HS : LinedFacts.hlines c).
  { refine (LinedFacts.hlines_many _ _ _ _ _ S). intros d h Hh. destruct Hh; eapply LinedFacts.field_hlines; [eapply text_encoding|eapply text_content_type|eapply text_content_id|eapply text_content_description|eapply text_content_disposition|eapply text_unknown]; eassumption. }
  constructor.
  - clear - HS. induction HS as [|a b Ha HS IH]; [now left|right]. destruct Ha as [n t Hn Ht]. destruct IH as [->|[u ->]]; [exists (n ++ [58%N] ++ t); now rewrite app_nil_r, <- !app_assoc|]. eexists. rewrite app_assoc. reflexivity.
  - apply LinedFacts.hlines_nolf in HS. intros a b X. apply (HS (a ++ [13%N]) (10%N :: b)). rewrite X, <- app_assoc. reflexivity.
  - destruct B as [->|[x ->]]; [left; rewrite EC; apply app_nil_r|right; exists x; exact EC].
Qed.
Lemma part_quiet : forall h p D r hd, at_address m p D -> z_raw_entity m lit h E (Borrowed p (length D)) = Ok r -> headers_of D hd -> quiet_for E hd ->
  forall c, In (Text, c) (of_entity r) -> is_borrowed c.
Proof.
  intros h p D r hd HA Z Hh Hq c Hin. assert (PE : exists e, raw_entity E D = Ok e). { pose proof (raw_part h p D HA) as S. rewrite Z in S. destruct (raw_entity E D); try contradiction. eauto. }
  destruct PE as [e He]. destruct (part_rest D e He) as (c0 & j & hs & HF & HD & Hc). rewrite (headers_unique D c0 hd Hc Hh) in HD.
  assert (H := raw_borrowed m lit E HK HM HL h p D (length j) False HA).
  specialize (H ltac:(intros a w j' H1 H2; destruct (infix _ _ _ _ _ _ H1 HD H2) as [x ->]; destruct Hq as [Hq1 Hq2]; split; [exact (quiet_infix _ _ _ Hq1)|intros HM' (u & v & ->); apply (Hq2 HM'); exists (a ++ u), (v ++ x); now rewrite <- !app_assoc]) ltac:(easy)).
  rewrite Z, He in H. destruct H as [_ H]. specialize (H j hs HF (le_n _)). apply (covers_entity _ (fun _ _ => False)) in H. destruct (covers_in _ _ _ _ _ _ _ _ H Hin) as [v Hv]. exact Hv.
Qed.
(* the value of a part *)
Lemma last_set : forall hs a e, h_encoding (fold_left set_header hs a) = Some e <-> last_encoding hs e \/ h_encoding a = Some e /\ forall e', ~ In (HEncoding e') hs.
Proof.
  induction hs as [|x hs IH]; intros a e; cbn [fold_left].
  - split; [intros H; right; now split|]. intros [(u & v & H & _)|[H _]]; [destruct u; discriminate|exact H].
  - rewrite IH. split.
    + intros [(u & v & -> & N)|[H N]]; [left; now exists (x :: u), v|]. destruct x; cbn in H; try (right; split; [exact H|intros e' [Y|Y]; [discriminate|exact (N _ Y)]]). left. injection H as <-. now exists [], hs.
    + intros [(u & v & H & N)|[H N]].
      * destruct u as [|y u]; injection H as -> ->; [right; cbn; now split|left; now exists u, v].
      * right. split; [|intros e' Y; apply (N e'); now right]. destruct x; cbn; try exact H. exfalso. apply (N e0). now left.
Qed.
Lemma part_value : forall h p D r j hs, at_address m p D -> z_raw_entity m lit h E (Borrowed p (length D)) = Ok r -> many (entity_header_parser E) D = Ok (j, hs) ->
  (is_borrowed (zr_value r) <-> ~ exists e, last_encoding hs e /\ decoded e).
Proof.
  intros h p D r j hs HA Z EM. assert (HH : held m h (Borrowed p (length D)) D) by (split; [now split|exact I]). rewrite (z_raw_eq m lit E _ _ _ HH) in Z. cbn [address_of] in Z.
  pose proof (header_part_does (place_of p D) D eq_refl HA (S (length D)) True (fun a w j => none_quiet _ D a w j) (fun _ a w j => none_quiet _ D a w j) E HK HM (fun _ a w j => none_quiet _ D a w j)) as P.
  destruct (z_header_part _ E D) as [[len a]|x|x]; try discriminate. destruct (header_part E D) as [[len' b]|x|x] eqn:HP; try contradiction. destruct P as (_ & _ & P & _). cbn [snd] in P. apply hl_encoding in P.
  assert (HB : b = fold_left set_header hs header_acc0). { unfold header_part in HP. rewrite EM in HP. cbn [bind] in HP. destruct j; [now injection HP|]. destruct (tag _ _ _) as [[j' u]|x|x]; try discriminate. now injection HP. }
  cbn [bind] in Z. destruct (usize_sub _ _) as [n|x|x]; try discriminate. cbn [bind] in Z. destruct (index_from _ _) as [v|x|x]; try discriminate. cbn [bind] in Z. destruct (z_decode_value _ _ _ _) as [d|x|x] eqn:V; try discriminate. cbn [bind] in Z. injection Z as <-. cbn [with_value zr_value].
  assert (Q : forall e, zh_encoding a = Some e <-> last_encoding hs e). { intros e. rewrite P, HB, last_set. cbn. split; [intros [H|[H _]]; [exact H|discriminate]|now left]. }
  destruct (zh_encoding a) as [e|] eqn:EZ.
  - assert (L : last_encoding hs e) by now apply Q. assert (U : forall e', last_encoding hs e' -> e' = e) by (intros e' H; apply Q in H; now injection H).
    cbn [encoding_of] in V. unfold z_decode_value in V. destruct e; try (injection V as <-; split; [intros _ (e' & X & [->| ->]); apply U in X; discriminate X|exact (fun _ => I)]); try discriminate V.
    all: destruct (contents _ _) as [x|x|x]; try discriminate V; cbn [bind] in V; match type of V with bind ?q _ = _ => destruct q as [y|y|y]; try discriminate V end; cbn [bind] in V; injection V as <-.
    all: split; [intros []|intros X; apply X; eexists; split; [exact L|unfold decoded; tauto]].
  - cbn in V. injection V as <-. split; [intros _ (e & X & _); apply Q in X; discriminate|exact (fun _ => I)].
Qed.
End Tree.
Lemma read_length : forall m n p s, read m p n = Ok s -> length s = n.
Proof.
  intros m n. induction n as [|n IH]; intros p s H; cbn [read] in H; [injection H as <-; reflexivity|]. destruct (m p); try discriminate. destruct (read m (p + 1) n) as [r|x|x] eqn:R; try discriminate. cbn [bind] in H. injection H as <-. cbn. f_equal. exact (IH _ _ R).
Qed.
Lemma contents_length : forall m c s, contents m c = Ok s -> length s = cow_len c.
Proof. intros m [p n|x] s H; [exact (read_length _ _ _ _ H)|cbn in H; injection H as <-; reflexivity]. Qed.
Lemma borrowed_charset : forall n, find_charset n = Some Utf8OrAscii <-> n = bs "utf-8" \/ n = bs "us-ascii".
Proof.
  intros n. split; [|intros [->| ->]; reflexivity]. intros H. assert (Q : forall (t : list (bytes * charset_kind)), map_get t n = Some Utf8OrAscii -> In (n, Utf8OrAscii) t).
  { clear H. induction t as [|[k v] t IH]; [discriminate|]. cbn [map_get]. destruct (bytes_eqb n k) eqn:X; [|intros H; right; auto]. intros [= ->]. left. apply PercentProofs.bytes_eqb_eq in X. now subst. }
  apply Q in H. unfold charset_table in H. cbn [In] in H. repeat (destruct H as [H|H]; [first [discriminate H|injection H as <-; auto]|]). contradiction.
Qed.
Lemma map_get_in : forall V (l : list (bytes * V)) k v, map_get l k = Some v -> In (k, v) l.
Proof. intros V l k v. induction l as [|[k' v'] l IH]; [discriminate|]. cbn [map_get]. destruct (bytes_eqb k k') eqn:X; [|intros H; right; auto]. intros [= ->]. left. apply PercentProofs.bytes_eqb_eq in X. now subst. Qed.
(* the text of an entity *)
Lemma text_value : forall m lit h E r s v, z_entity m lit h E r = Ok (ZEText s v) -> s = zr_subtype r /\ exists k c cs, In (bs "charset", (k, c)) (zr_parameters r) /\ contents m c = Ok cs /\
  (is_borrowed v <-> lowercase cs = bs "utf-8" \/ lowercase cs = bs "us-ascii") /\ (is_borrowed v -> v = Borrowed (address_of h (zr_value r)) (cow_len (zr_value r))).
Proof.
  intros m lit h E r s v H. unfold z_entity in H. destruct (zr_type r) as [[]|]; try discriminate.
  - destruct (map_get _ _) as [[k c]|] eqn:G; try discriminate. apply map_get_in in G. destruct (contents m c) as [cs|x|x] eqn:C; try discriminate. cbn [bind] in H. pose proof (borrowed_charset (lowercase cs)) as B. destruct (find_charset _) as [kind|]; try discriminate.
    destruct (contents m (zr_value r)) as [d|x|x] eqn:CV; try discriminate. cbn [bind] in H. destruct (decode_charset E kind d) as [t|x|x]; try discriminate. cbn [bind] in H. injection H as <- <-. split; [reflexivity|]. exists k, c, cs. split; [exact G|]. split; [exact C|].
    rewrite <- B. clear B. destruct kind; cbn [is_borrowed]; (split; [split; intros X; now try discriminate X|]); [intros _; f_equal; exact (contents_length _ _ _ CV)|intros []].
  - destruct (contents m _); try discriminate. cbn [bind] in H. destruct (z_parse_multipart _ _ _ _ _ _); discriminate.
Qed.

(* The parts of an entity as slices. *)
From Verif Require Import Base Utf8 CharSets Combinators StringCow StringSpec Base64 QuotedPrintable Charset Time Address Percent MimeFields Fields Message Entity Email Envs Utf8Facts StringFacts ZeroCopy ZeroSpec ZeroFacts ZeroStrings ZeroExact ZeroParts ZeroPartsSpec.
From Verif Require Post SoundMessage LocalFacts LinedFacts EntitySpec EntityProofs.
From Coq Require Import Lia Bool.

Section Place.
Variable M : place.
Variable D : bytes.
Notation m := (memory M).
Hypothesis HT : total M = length D.
Hypothesis HA : at_address m (base M) D.
Variable L : nat.
Variable X : Prop.
Hypothesis HQ : forall a w j, D = a ++ w ++ j -> L <= length j -> quiet w.
Hypothesis HN : X -> forall a w j, D = a ++ w ++ j -> L <= length j -> ~ In 91%N w.
Variable E : env.
Hypothesis HK : env_ok E.
Hypothesis HM : f_mime E = true.
Hypothesis HE : f_mime E = true -> forall a w j, D = a ++ w ++ j -> L <= length j -> ~ exists x y, w = x ++ bs "=?" ++ y.

Definition part_like (t d : cow -> bytes -> Prop) (a : z_entity_header) (b : entity_header) : Prop :=
  match a, b with
  | ZHEncoding a, HEncoding b => a = b
  | ZHType a b c, HType a' b' c' => content_type_like M D (a, b, c) (a', b', c')
  | ZHId a, HId b => like_id (fixed_ok M D) a b
  | ZHDescription a, HDescription b => t a b
  | ZHDisposition a, HDisposition b => disposition_like M D t d a b
  | ZHOther n v, HOther n' v' => like_unknown t (fixed_ok M D) (n, v) (n', v')
  | _, _ => False
  end.
Lemma part_does : does D (z_entity_header_parser M E) (entity_header_parser E) (plain M D L X part_like).
Proof.
  unfold z_entity_header_parser, entity_header_parser.
  apply match_cons; [eapply pmap_does; [apply encoding_does|]; intros i j a b Y; split; [exact Y|intros _; exact Y]|].
  apply match_cons; [eapply pmap_does; [apply (content_type_does M D HT HA L X HQ HN E HK HE)|]; intros i j [[a a'] a''] [[b b'] b''] Y; split; [exact Y|intros _; exact Y]|].
  apply match_cons; [eapply pmap_plain; [apply (content_id_does M D HT HA L X HQ HN E HE)|]; intros t d a b Y; exact Y|].
  apply match_cons; [eapply pmap_plain; [apply (content_description_does M D HT HA L X HQ HN E HK HE HM)|]; intros t d a b Y; exact Y|].
  apply match_cons; [eapply pmap_plain; [apply (content_disposition_does M D HT HA L X HQ HN E HK HE)|]; intros t d a b Y; exact Y|].
  apply match_cons; [|apply match_nil]. eapply pmap_plain; [apply (unknown_does M D HT HA L X HQ HN E HK HE)|]. intros t d [a a'] [b b'] Y. exact Y.
Qed.
Record hacc_like (t d : cow -> bytes -> Prop) (a : z_header_acc) (b : header_acc) : Prop := {
  hl_encoding : zh_encoding a = h_encoding b;
  hl_type : like_option (content_type_like M D) (zh_type a) (h_type b);
  hl_id : like_option (like_id (fixed_ok M D)) (zh_id a) (h_id b);
  hl_description : like_option t (zh_description a) (h_description b);
  hl_disposition : like_option (disposition_like M D t d) (zh_disposition a) (h_disposition b);
  hl_additional : Forall2 (like_pair (fixed_ok M D) t) (zh_additional a) (h_additional b)
}.
Lemma set_header_does : forall t d l l', Forall2 (part_like t d) l l' -> forall a b, hacc_like t d a b -> hacc_like t d (fold_left z_set_header l a) (fold_left set_header l' b).
Proof.
  intros t d l l' H. induction H as [|x y l l' H1 H IH]; intros a b HR; [exact HR|]. cbn [fold_left]. apply IH.
  destruct HR, x, y; try contradiction; cbn [part_like] in H1; constructor; cbn; try assumption.
  - now rewrite H1.
  - destruct H1 as [H1 H2]. apply Forall2_app; [assumption|]. constructor; [split; assumption|constructor].
Qed.
Lemma hacc0_like : forall t d, hacc_like t d z_header_acc0 header_acc0.
Proof. intros t d. constructor; cbn; try exact I; constructor. Qed.
(* what is left of the input is its last bytes *)
Definition part_out (x : nat * z_header_acc) (y : nat * header_acc) : Prop :=
  fst x = fst y /\ (exists w v, D = w ++ v /\ length v = fst x) /\ hacc_like (text_ok M D) (text_ok M D) (snd x) (snd y) /\
  (forall j hs, many (entity_header_parser E) D = Ok (j, hs) -> L <= length j -> hacc_like kept (domain_kept X) (snd x) (snd y)).
Lemma header_part_does : rel part_out (z_header_part M E D) (header_part E D).
Proof.
  unfold z_header_part, header_part. pose proof (many_plain M D HT L X HQ HN _ _ _ _ _ part_does D (after_refl D)) as F.
  destruct (many (z_entity_header_parser M E) D) as [[j fs]|e|c], (many (entity_header_parser E) D) as [[j' gs]|e'|c'] eqn:EM; try contradiction; [|exact F..].
  destruct F as (Ej & Hj & F1 & F2). cbn [fst snd] in *. subst j'. cbn [bind].
  assert (A1 := set_header_does _ _ _ _ F1 _ _ (hacc0_like _ _)).
  assert (A2 : forall j2 hs, Ok (j, gs) = Ok (j2, hs) -> L <= length j2 -> hacc_like kept (domain_kept X) (fold_left z_set_header fs z_header_acc0) (fold_left set_header gs header_acc0)).
  { intros j2 hs [= <- <-] HL'. exact (set_header_does _ _ _ _ (F2 HL') _ _ (hacc0_like _ _)). }
  destruct j as [|x j].
  - cbn. split; [reflexivity|]. split; [exists D, []; split; [now rewrite app_nil_r|reflexivity]|]. split; [exact A1|]. rewrite EM. exact A2.
  - pose proof (tag_does M D HT L X HQ HN CRLF "TAG ERROR: A MIME entity header part must be followed by a CRLF sequence." (x :: j) Hj) as T.
    destruct (tag _ _ (x :: j)) as [[k u]|e|c]; [|reflexivity..]. destruct T as (_ & T1 & T2). cbn [bind rel fst snd] in *. split; [reflexivity|]. cbn [fst snd].
    split; [destruct Hj as [w0 ->]; rewrite T2; exists (w0 ++ CRLF), k; now rewrite <- app_assoc|]. split; [exact A1|]. rewrite EM. exact A2.
Qed.
End Place.

Lemma held_contents : forall m h c v, held m h c v -> contents m c = Ok v.
Proof. intros m h c v [H _]. exact (bytes_contents {| memory := m; base := 0; total := 0; literal := 0 |} _ _ H). Qed.
Lemma held_at : forall m h c v, held m h c v -> at_address m (address_of h c) v.
Proof. intros m h [p n|s] v [H1 H2]; [apply H1|exact H2]. Qed.
Lemma like_entity_mono : forall (t f lo ra t' f' lo' ra' : cow -> bytes -> Prop) a b, (forall c v, t c v -> t' c v) -> (forall c v, f c v -> f' c v) -> (forall c v, lo c v -> lo' c v) -> (forall c v, ra c v -> ra' c v) ->
  like_entity t f lo ra a b -> like_entity t' f' lo' ra' a b.
Proof.
  intros t f lo ra t' f' lo' ra' a b Ht Hf Hlo Hra [].
  assert (MAP : forall a b, like_map lo lo a b -> like_map lo' lo' a b) by (intros u v W; induction W as [|x y u v (H1 & H2 & H3) W IH]; constructor; [auto|exact IH]).
  constructor.
  - destruct (zr_type a), (e_mime_type b); try assumption. exact (Hlo _ _ lr_type).
  - exact (Hlo _ _ lr_subtype).
  - exact (option_loose _ _ _ _ _ _ Ht lr_description).
  - refine (option_loose _ _ _ _ _ _ _ lr_id). intros u v [H1 H2]. split; auto.
  - exact (MAP _ _ lr_parameters).
  - refine (option_loose _ _ _ _ _ _ _ lr_disposition). intros u v []. constructor; try assumption; [|exact (option_loose _ _ _ _ _ _ Ht ld_filename)|exact (MAP _ _ ld_params)]. destruct (z_disposition_type u), (disposition_type v); try assumption. exact (Hlo _ _ ld_type).
  - exact (Hra _ _ lr_value).
  - induction lr_additional as [|x y u v [H1 H2] W IH]; constructor; [split; auto|exact IH].
Qed.

(* -- the copies of header_part_owned -- *)
Definition own_text (c : cow) (v : bytes) : Prop := utf8_valid v = true /\ c = Owned v.
Definition own_bytes (c : cow) (v : bytes) : Prop := c = Owned v.
Lemma into_owned_does : forall m c v, StringSpec.is_text m c v -> exists c', into_owned m c = Ok c' /\ own_text c' v.
Proof.
  intros m c v [H1 H2]. exists (Owned v). split; [|now split]. unfold into_owned.
  assert (B : is_bytes m c v) by (destruct c; exact H2). pose proof (bytes_contents {| memory := m; base := 0; total := 0; literal := 0 |} _ _ B) as R. cbn [memory] in R. now rewrite R.
Qed.
Lemma own_option_does : forall A B (f : A -> res A) (R Q : A -> B -> Prop) x y, (forall a b, R a b -> exists a', f a = Ok a' /\ Q a' b) -> like_option R x y -> exists x', own_option f x = Ok x' /\ like_option Q x' y.
Proof. intros A B f R Q [a|] [b|] H HR; try contradiction; [|exists None; now split]. destruct (H _ _ HR) as (a' & EA & HQ). exists (Some a'). cbn. rewrite EA. now split. Qed.
Lemma own_list_does : forall A B (f : A -> res A) (R Q : A -> B -> Prop) l l', (forall a b, R a b -> exists a', f a = Ok a' /\ Q a' b) -> Forall2 R l l' -> exists x, own_list f l = Ok x /\ Forall2 Q x l'.
Proof.
  intros A B f R Q l l' H HF. induction HF as [|a b l l' HR HF IH]; [exists []; now split|]. destruct (H _ _ HR) as (a' & EA & HQ), IH as (x & EX & HX). exists (a' :: x). cbn. rewrite EA. cbn. rewrite EX. split; [reflexivity|now constructor].
Qed.
Section Own.
Variable m : mem.
Notation T := (StringSpec.is_text m).
Lemma own_pair_does : forall x y, like_pair T T x y -> exists x', own_pair m x = Ok x' /\ like_pair own_text own_text x' y.
Proof.
  intros x y [H1 H2]. destruct (into_owned_does _ _ _ H1) as (a & EA & Ha), (into_owned_does _ _ _ H2) as (b & EB & Hb). exists (a, b). unfold own_pair. rewrite EA. cbn [bind]. rewrite EB. now split.
Qed.
Lemma own_entries_does : forall x y, like_map T T x y -> exists x', own_list (own_entry m) x = Ok x' /\ like_map own_text own_text x' y.
Proof.
  intros x y H. refine (own_list_does _ _ _ _ _ _ _ _ H). intros [k a] [k' b] (EK & H1 & H2). cbn [fst snd] in *. subst k'.
  destruct (into_owned_does _ _ _ H1) as (u & EU & Hu), (into_owned_does _ _ _ H2) as (v & EV & Hv). exists (k, (u, v)). unfold own_entry, own_pair. cbn [fst snd]. rewrite EU. cbn [bind]. rewrite EV. now split.
Qed.
Lemma own_disposition_does : forall a b, like_disposition T T a b -> exists a', own_disposition m a = Ok a' /\ like_disposition own_text own_text a' b.
Proof.
  intros a b []. assert (K : exists k, own_disposition_type m (z_disposition_type a) = Ok k /\ like_disposition_type own_text k (disposition_type b)).
  { destruct (z_disposition_type a), (disposition_type b); try contradiction; [now exists ZDInline|now exists ZDAttachment|]. destruct (into_owned_does _ _ _ ld_type) as (c & EC & Hc). exists (ZDUnknown c). cbn. rewrite EC. now split. }
  destruct K as (k & EK & Hk). destruct (own_option_does _ _ _ _ _ _ _ (into_owned_does m) ld_filename) as (f & EF & Hf), (own_entries_does _ _ ld_params) as (u & EU & Hu).
  eexists. split; [unfold own_disposition; rewrite EK; cbn [bind]; rewrite EF; cbn [bind]; rewrite EU; reflexivity|]. now constructor.
Qed.
Lemma own_headers_does : forall (ra : cow -> bytes -> Prop) a b, like_entity T T T ra a b -> exists a', own_headers m a = Ok a' /\ like_entity own_text own_text own_text ra a' b.
Proof.
  intros ra a b []. assert (K : exists k, own_type m (zr_type a) = Ok k /\ like_type own_text k (e_mime_type b)).
  { destruct (zr_type a) as [k|c], (e_mime_type b); try contradiction; try (eexists; split; [reflexivity|exact lr_type]). destruct (into_owned_does _ _ _ lr_type) as (c' & EC & Hc). exists (ZOther c'). cbn. rewrite EC. now split. }
  destruct K as (k & EK & Hk). destruct (into_owned_does _ _ _ lr_subtype) as (s & ES & Hs), (own_entries_does _ _ lr_parameters) as (p & EP & Hp), (own_list_does _ _ _ _ _ _ _ own_pair_does lr_additional) as (ah & EH & Hh),
    (own_option_does _ _ _ _ _ _ _ own_pair_does lr_id) as (i & EI & Hi), (own_option_does _ _ _ _ _ _ _ (into_owned_does m) lr_description) as (d & ED & Hd), (own_option_does _ _ _ _ _ _ _ own_disposition_does lr_disposition) as (di & EDI & Hdi).
  eexists. split; [unfold own_headers; rewrite EK; cbn [bind]; rewrite ES; cbn [bind]; rewrite EP; cbn [bind]; rewrite EH; cbn [bind]; rewrite EI; cbn [bind]; rewrite ED; cbn [bind]; rewrite EDI; reflexivity|]. now constructor.
Qed.
End Own.

Section Raw.
Variables (m : mem) (lit : literals) (E : env).
Hypothesis HK : env_ok E.
Hypothesis HM : f_mime E = true.
Hypothesis HL : loaded m lit.
Definition at_place (p : N) (D : bytes) : place := {| memory := m; base := p; total := length D; literal := at_empty lit |}.

Lemma cut_off : forall (D w v : bytes), D = w ++ v -> exists n, usize_sub (length D) (length v) = Ok n /\ n = length w /\ index_from D n = Ok v.
Proof.
  intros D w v ->. exists (length w). unfold usize_sub, index_from. rewrite app_length. split; [|split; [reflexivity|]].
  - destruct (Nat.ltb_spec (length w + length v) (length v)); [lia|f_equal; lia].
  - destruct (Nat.ltb_spec (length w + length v) (length w)); [lia|]. rewrite skipn_app, Nat.sub_diag, skipn_all. reflexivity.
Qed.
(* the headers, before the value is decoded *)
Definition undecoded (value : cow) (a : z_header_acc) : z_raw_entity_t :=
  let '(t, s, p) := match zh_type a with Some x => x | None => z_default_content_type lit end in
  {| zr_type := t; zr_subtype := s; zr_description := zh_description a; zr_id := zh_id a; zr_parameters := p; zr_disposition := zh_disposition a; zr_value := value; zr_additional := zh_additional a |}.
Definition undecoded' (value : bytes) (a : header_acc) : raw_entity_t :=
  let '(t, s, p) := match h_type a with Some x => x | None => default_content_type end in
  {| e_mime_type := t; e_subtype := s; e_description := h_description a; e_id := h_id a; e_parameters := p; e_disposition := h_disposition a; e_value := value; e_additional_headers := h_additional a |}.
Lemma undecoded_like : forall p D t d (ra : cow -> bytes -> Prop) a b c v, hacc_like (at_place p D) D t d a b -> ra c v -> like_entity t (fixed_ok (at_place p D) D) (loose_ok (at_place p D) D lit) ra (undecoded c a) (undecoded' v b).
Proof.
  intros p D t d ra a b c v [hE hT hI hD hP hA] HR. unfold undecoded, undecoded'.
  assert (C : loose_type_like (at_place p D) D lit (match zh_type a with Some x => x | None => z_default_content_type lit end) (match h_type b with Some x => x | None => default_content_type end)).
  { destruct (zh_type a) as [[[x q] r]|], (h_type b) as [[[x' q'] r']|]; try contradiction; [|apply default_loose; exact HL]. destruct hT as (X1 & X2 & X3). split; [now apply type_loose|]. split; [now apply text_loose|now apply map_loose]. }
  destruct (match zh_type a with Some x => x | None => z_default_content_type lit end) as [[x q] r], (match h_type b with Some x => x | None => default_content_type end) as [[x' q'] r']. destruct C as (C1 & C2 & C3).
  constructor; cbn [zr_type zr_subtype zr_description zr_id zr_parameters zr_disposition zr_value zr_additional e_mime_type e_subtype e_description e_id e_parameters e_disposition e_value e_additional_headers]; try assumption.
  refine (option_loose _ _ _ _ _ _ (disposition_loose (at_place p D) D lit t d) _). assumption.
Qed.
Definition with_value (r : z_raw_entity_t) (v : cow) : z_raw_entity_t :=
  {| zr_type := zr_type r; zr_subtype := zr_subtype r; zr_description := zr_description r; zr_id := zr_id r; zr_parameters := zr_parameters r; zr_disposition := zr_disposition r; zr_value := v; zr_additional := zr_additional r |}.
Definition with_value' (r : raw_entity_t) (v : bytes) : raw_entity_t :=
  {| e_mime_type := e_mime_type r; e_subtype := e_subtype r; e_description := e_description r; e_id := e_id r; e_parameters := e_parameters r; e_disposition := e_disposition r; e_value := v; e_additional_headers := e_additional_headers r |}.
Lemma with_value_like : forall t f lo (ra : cow -> bytes -> Prop) (ra' : cow -> bytes -> Prop) a b c v, like_entity t f lo ra' a b -> ra c v -> like_entity t f lo ra (with_value a c) (with_value' b v).
Proof. intros t f lo ra ra' a b c v [] H. now constructor. Qed.
Definition encoding_of (e : option encoding_t) : encoding_t := match e with Some e => e | None => SevenBit end.
Lemma z_raw_eq : forall h c D, held m h c D -> z_raw_entity m lit h E c =
  (let* (len, a) := z_header_part (at_place (address_of h c) D) E D in
   let* n := usize_sub (length D) len in
   let* v := index_from D n in
   let value := match c with Borrowed p _ => Borrowed (p + N.of_nat n)%N (length v) | Owned _ => Owned v end in
   let* r := match c with Borrowed _ _ => Ok (undecoded value a) | Owned _ => own_headers m (undecoded value a) end in
   let* x := z_decode_value (at_place (address_of h c) D) E value (encoding_of (zh_encoding a)) in
   Ok (with_value r x)).
Proof.
  intros h c D H. unfold z_raw_entity. rewrite (held_contents _ _ _ _ H). cbn [bind]. fold (at_place (address_of h c) D).
  destruct (z_header_part _ E D) as [[len a]|e|x]; [|reflexivity..]. cbn [bind]. destruct (usize_sub (length D) len) as [n|e|x]; [|reflexivity..]. cbn [bind]. destruct (index_from D n) as [v|e|x]; [|reflexivity..]. cbn [bind].
  unfold undecoded, encoding_of. destruct (match zh_type a with Some x => x | None => z_default_content_type lit end) as [[t s] p]. reflexivity.
Qed.
Lemma raw_eq : forall D, raw_entity E D =
  (let* (len, a) := header_part E D in
   let* n := usize_sub (length D) len in
   let* v := index_from D n in
   let* x := decode_value E v (encoding_of (h_encoding a)) in
   Ok (with_value' (undecoded' v a) x)).
Proof.
  intros D. unfold raw_entity. destruct (header_part E D) as [[len a]|e|x]; [|reflexivity..]. cbn [bind]. destruct (usize_sub (length D) len) as [n|e|x]; [|reflexivity..]. cbn [bind]. destruct (index_from D n) as [v|e|x]; [|reflexivity..]. cbn [bind].
  unfold undecoded', encoding_of. destruct (match h_type a with Some x => x | None => default_content_type end) as [[t s] p]. reflexivity.
Qed.
Lemma value_slice : forall p D w v, at_address m p D -> D = w ++ v -> raw_ok (at_place p D) D (Borrowed (p + N.of_nat (length w)) (length v)) v.
Proof.
  intros p D w v HA ->. split; [split; [reflexivity|]|].
  - intros k b Hk. cbn [at_place memory]. rewrite <- (HA (length w + k) b); [f_equal; lia|]. rewrite nth_error_app2 by lia. replace (length w + k - length w) with k by lia. exact Hk.
  - cbn [slice_in at_place base]. right. rewrite app_length. lia.
Qed.
Lemma raw_borrowed : forall h p D L (X : Prop), at_address m p D -> (forall a w j, D = a ++ w ++ j -> L <= length j -> quiet_for E w) -> (X -> forall a w j, D = a ++ w ++ j -> L <= length j -> ~ In 91%N w) ->
  rel (fun z e => like_entity (text_ok (at_place p D) D) (fixed_ok (at_place p D) D) (loose_ok (at_place p D) D lit) (raw_ok (at_place p D) D) z e /\
    (forall j hs, many (entity_header_parser E) D = Ok (j, hs) -> L <= length j -> like_entity kept (fixed_ok (at_place p D) D) (loose_ok (at_place p D) D lit) (raw_ok (at_place p D) D) z e))
   (z_raw_entity m lit h E (Borrowed p (length D))) (raw_entity E D).
Proof.
  intros h p D L X HA HQ0 HN. assert (HH : held m h (Borrowed p (length D)) D) by (split; [now split|exact I]). rewrite (z_raw_eq _ _ _ HH), raw_eq. cbn [address_of].
  assert (HQ : forall a w j, D = a ++ w ++ j -> L <= length j -> quiet w) by (intros a w j H1 H2; exact (proj1 (HQ0 a w j H1 H2))).
  assert (HE : f_mime E = true -> forall a w j, D = a ++ w ++ j -> L <= length j -> ~ exists x y, w = x ++ bs "=?" ++ y) by (intros HM' a w j H1 H2; exact (proj2 (HQ0 a w j H1 H2) HM')).
  eapply rel_bind; [exact (header_part_does (at_place p D) D eq_refl HA L X HQ HN E HK HM HE)|]. intros [len a] [len' b] (EL & (w & v & ED & Ev) & H1 & H2). cbn [fst snd] in *. subst len' len.
  destruct (cut_off D w v ED) as (n & -> & -> & EI). cbn [bind]. rewrite EI. cbn [bind]. rewrite (hl_encoding _ _ _ _ _ _ H1).
  pose proof (value_slice p D w v HA ED) as HV. eapply rel_bind; [exact (decode_value_does (at_place p D) D E _ _ _ HV)|]. intros x y Hxy. cbn [rel]. split; [|intros j hs EM Hj]; (eapply with_value_like; [eapply undecoded_like; [|exact HV]|exact Hxy]); [exact H1|exact (H2 j hs EM Hj)].
Qed.
Lemma own_decode : forall p D v enc, rel own_bytes (z_decode_value (at_place p D) E (Owned v) enc) (decode_value E v enc).
Proof.
  intros p D v enc. destruct enc; cbn [z_decode_value decode_value contents]; try reflexivity; cbn [bind].
  - destruct (decode_qp E v); reflexivity.
  - destruct (decode_base64 E v); reflexivity.
Qed.
Lemma raw_owned : forall h D, at_address m h D -> rel (like_entity own_text own_text own_text own_bytes) (z_raw_entity m lit h E (Owned D)) (raw_entity E D).
Proof.
  intros h D HA. assert (HH : held m h (Owned D) D) by (split; [reflexivity|exact HA]). rewrite (z_raw_eq _ _ _ HH), raw_eq. cbn [address_of].
  assert (N : forall (P : Prop) (a w j : list N), D = a ++ w ++ j -> S (length D) <= length j -> P) by (intros P a w j -> HLj; rewrite !app_length in HLj; lia).
  eapply rel_bind; [exact (header_part_does (at_place h D) D eq_refl HA (S (length D)) True (fun a w j => N _ a w j) (fun _ a w j => N _ a w j) E HK HM (fun _ a w j => N _ a w j))|]. intros [len a] [len' b] (EL & (w & v & ED & Ev) & H1 & _). cbn [fst snd] in *. subst len' len.
  destruct (cut_off D w v ED) as (n & -> & -> & EI). cbn [bind]. rewrite EI. cbn [bind]. rewrite (hl_encoding _ _ _ _ _ _ H1).
  pose proof (undecoded_like h D _ _ own_bytes _ _ (Owned v) v H1 eq_refl) as U.
  apply (like_entity_mono _ _ _ _ (StringSpec.is_text m) (StringSpec.is_text m) (StringSpec.is_text m) own_bytes) in U; [|intros c x []; assumption|intros c x [[] ?]; assumption|intros c x []; assumption|auto].
  destruct (own_headers_does m _ _ _ U) as (r & -> & Hr). cbn [bind]. eapply rel_bind; [apply own_decode|]. intros x y Hxy. cbn [rel]. eapply with_value_like; [exact Hr|exact Hxy].
Qed.
End Raw.

(* Proof of C35: nothing depends on the iteration order of hash maps. *)
From Coq Require Import Permutation.
From Verif Require Import Base PercentProofs Base64 QuotedPrintable QPProofs EncodedWord Whitespace QuotedString Common Time Address Utf8 Combinators Charset Percent MimeFields Fields Message Entity Email EmailSpec ParamSpec ParamProofs CompleteFields Envs SafetyProofs.

Section Order.
Variables (E : env) (h h' : list bytes -> list bytes).
Hypothesis Hh : an_order h.
Hypothesis Hh' : an_order h'.
Let A := with_order E h.
Let B := with_order E h'.

Lemma decode_percents_order : forall ps i, decode_percents A i ps = decode_percents B i ps.
Proof. induction ps as [|p ps IH]; intros i; [reflexivity|]. cbn [decode_percents]. change (decode_percent A i p) with (decode_percent B i p). destruct (decode_percent B i p); cbn [bind]; auto. Qed.
Lemma decode_parameter_order : forall i c, decode_parameter A i c = decode_parameter B i c.
Proof.
  intros i c. unfold decode_parameter. destruct (find_charset c) as [k|]; [|reflexivity]. cbv zeta. rewrite decode_percents_order.
  destruct (decode_percents B i (rev (percents_from 0 i))); cbn [bind]; auto.
Qed.
Lemma next_segments_order : forall n values cs idx v, next_segments A n values cs idx v = next_segments B n values cs idx v.
Proof.
  induction n as [|n IH]; intros values cs idx v; [reflexivity|]. cbn [next_segments]. destruct (imap_remove values idx) as [[[e nv] values']|]; [|reflexivity].
  assert (X : forall y, (let* idx := u8_add A idx 1 in next_segments A n values' cs idx y) = (let* idx := u8_add B idx 1 in next_segments B n values' cs idx y)).
  { intros y. change (u8_add A idx 1) with (u8_add B idx 1). destruct (u8_add B idx 1); cbn [bind]; auto. }
  destruct e, cs as [c|]; cbn [bind]; try apply X. rewrite decode_parameter_order. destruct (decode_parameter B nv c); cbn [bind]; auto.
Qed.
Lemma join_segments_order : forall values, join_segments A values = join_segments B values.
Proof.
  intros values. unfold join_segments. destruct (imap_remove values 0) as [[[e v] values']|]; [|reflexivity].
  assert (X : first_segment A e v = first_segment B e v).
  { unfold first_segment. destruct e; [|reflexivity]. destruct (take_while (fun c => negb (c =? 39)%N) v) as [[v1 c1]| |]; cbn [bind]; auto. cbv zeta.
    destruct (tag (bs "'") _ v1) as [[v2 c2]| |]; cbn [bind]; auto. destruct (take_while (fun c => negb (c =? 39)%N) v2) as [[v3 c3]| |]; cbn [bind]; auto.
    destruct (tag (bs "'") _ v3) as [[v4 c4]| |]; cbn [bind]; auto. now rewrite decode_parameter_order. }
  rewrite X. destruct (first_segment B e v) as [[v1 cs]| |]; cbn [bind]; auto. now rewrite next_segments_order.
Qed.

(* ---- all the names ---- *)
Definition joins (C : env) (complex : list (bytes * list (N * (bool * bytes)))) (names : list bytes) : Prop :=
  forall n values, In n names -> map_get complex n = Some values -> exists o, join_segments C values = Ok o.
Lemma join_all_joins : forall C complex names ps ps', join_all C names complex ps = Ok ps' -> joins C complex names.
Proof.
  intros C complex. induction names as [|n0 names IH]; intros ps ps' H n values Hn Hg; [easy|]. cbn [join_all] in H.
  destruct (map_get complex n0) as [vs|] eqn:G.
  - destruct (join_segments C vs) as [o| |] eqn:J; try discriminate. cbn [bind] in H. destruct Hn as [->|Hn]; [|eapply IH; eauto].
    rewrite G in Hg. inversion Hg; subst. eauto.
  - destruct Hn as [->|Hn]; [congruence|]. eapply IH; eauto.
Qed.
Lemma joins_join_all : forall C complex names ps, joins C complex names -> exists ps', join_all C names complex ps = Ok ps'.
Proof.
  intros C complex. induction names as [|n0 names IH]; intros ps H; cbn [join_all]; [eauto|].
  assert (H' : joins C complex names). { intros n vs Hn. apply H. now right. }
  destruct (map_get complex n0) as [vs|] eqn:G; [|auto]. destruct (H n0 vs (or_introl eq_refl) G) as [o ->]. cbn [bind]. auto.
Qed.
Definition lookup (C : env) (complex : list (bytes * list (N * (bool * bytes)))) (n : bytes) : option bytes :=
  match map_get complex n with Some vs => match join_segments C vs with Ok o => o | _ => None end | None => None end.
Lemma join_all_lookup : forall C complex names ps ps', join_all C names complex ps = Ok ps' ->
  forall n, (In n names -> map_get ps' n = match lookup C complex n with Some v => Some v | None => map_get ps n end) /\ (~ In n names -> map_get ps' n = map_get ps n).
Proof.
  intros C complex. induction names as [|n0 names IH]; intros ps ps' H n; cbn [join_all] in H.
  - inversion H; subst. split; [intros []|auto].
  - destruct (map_get complex n0) as [vs|] eqn:G.
    + destruct (join_segments C vs) as [o| |] eqn:J; try discriminate. cbn [bind] in H. pose proof (IH _ _ H n) as [H1 H2].
      assert (L : lookup C complex n0 = o) by (unfold lookup; now rewrite G, J).
      assert (K : forall x, map_get (match o with Some v => map_insert ps n0 v | None => ps end) x = if bytes_eqb x n0 then match o with Some v => Some v | None => map_get ps x end else map_get ps x).
      { intros x. destruct o; [rewrite map_get_insert|]; destruct (bytes_eqb x n0); reflexivity. }
      rewrite K in H1, H2. destruct (bytes_eqb n n0) eqn:Q.
      * apply bytes_eqb_eq in Q. subst n0. rewrite L in *. split; [intros _|intros X; exfalso; apply X; now left].
        destruct (in_dec (list_eq_dec N.eq_dec) n names) as [X|X]; [rewrite H1 by auto; destruct o; auto|now rewrite H2].
      * assert (n <> n0) by (intros ->; rewrite bytes_eqb_refl in Q; discriminate). split; [intros [X|X]; [congruence|auto]|intros X; apply H2; intros Y; apply X; now right].
    + pose proof (IH _ _ H n) as [H1 H2]. split; [intros [<-|X]; [|auto]|intros X; apply H2; intros Y; apply X; now right].
      unfold lookup. rewrite G. destruct (in_dec (list_eq_dec N.eq_dec) n0 names) as [X|X]; [rewrite H1 by auto; unfold lookup; now rewrite G|now rewrite H2].
Qed.

(* one run and the other: agreeing results, or both fail; crashes may differ *)
Definition agree {T} (same : T -> T -> Prop) (x y : res T) : Prop :=
  match x, y with
  | Ok a, Ok b => same a b
  | Err _, Err _ | Crash _, _ | _, Crash _ => True
  | _, _ => False
  end.
Definition agree_e {T} (same : T -> T -> Prop) (x y : res T) : Prop :=
  match x, y with
  | Ok a, Ok b => same a b
  | Err e, Err e' => e = e'
  | Crash _, _ | _, Crash _ => True
  | _, _ => False
  end.
(* no Ok against anything else *)
Definition agree_ok {T} (same : T -> T -> Prop) (x y : res T) : Prop :=
  match x, y with
  | Ok a, Ok b => same a b
  | Ok _, _ | _, Ok _ => False
  | _, _ => True
  end.
Lemma collect_order : forall raw, agree_ok same_map (collect_parameters A raw) (collect_parameters B raw).
Proof.
  intros raw. unfold collect_parameters. destruct (split_parameters raw [] []) as [plain complex].
  change (hash_order A (map fst complex)) with (h (map fst complex)). change (hash_order B (map fst complex)) with (h' (map fst complex)).
  pose proof (Hh (map fst complex)) as P. pose proof (Hh' (map fst complex)) as P'. generalize dependent (h (map fst complex)). intros l P. generalize dependent (h' (map fst complex)). intros l' P'.
  assert (Q : forall n, In n l <-> In n l').
  { intros n. split; intros X; eapply Permutation_in; try exact X; eapply Permutation_trans; eauto using Permutation_sym. }
  assert (J : joins A complex l <-> joins B complex l').
  { split; intros X n vs Hn Hg; [rewrite <- join_segments_order|rewrite join_segments_order]; eapply X; eauto; now apply Q. }
  destruct (join_all A l complex plain) as [ps| |] eqn:R.
  - destruct (joins_join_all B complex l' plain (proj1 J (join_all_joins _ _ _ _ _ R))) as [ps' R']. rewrite R'. intros n.
    destruct (join_all_lookup _ _ _ _ _ R n) as [R1 R2]. destruct (join_all_lookup _ _ _ _ _ R' n) as [R3 R4].
    assert (L : lookup A complex n = lookup B complex n). { unfold lookup. destruct (map_get complex n); auto. now rewrite join_segments_order. }
    destruct (in_dec (list_eq_dec N.eq_dec) n l) as [X|X].
    + rewrite R1, R3, L by (auto; now apply Q). reflexivity.
    + rewrite R2, R4; auto. intros Y. apply X. now apply Q.
  - destruct (join_all B l' complex plain) as [ps'| |] eqn:R'; cbn; auto.
    destruct (joins_join_all A complex l plain (proj2 J (join_all_joins _ _ _ _ _ R'))) as [ps R'']. congruence.
  - destruct (join_all B l' complex plain) as [ps'| |] eqn:R'; cbn; auto.
    destruct (joins_join_all A complex l plain (proj2 J (join_all_joins _ _ _ _ _ R'))) as [ps R'']. congruence.
Qed.

Definition same_type (x y : bytes * (content_type_t * bytes * list (bytes * bytes))) : Prop :=
  let '(r, (t, s, l)) := x in let '(r', (t', s', l')) := y in r = r' /\ t = t' /\ s = s' /\ same_map l l'.
Lemma agree_ok_bind_same : forall T U (same : U -> U -> Prop) (x y : res T) (f g : T -> res U), x = y -> (forall a, agree_ok same (f a) (g a)) -> agree_ok same (bind x f) (bind y g).
Proof. intros T U same x y f g -> H. destruct y; cbn; auto. Qed.
Lemma agree_ok_bind : forall T U (same0 : T -> T -> Prop) (same : U -> U -> Prop) (x y : res T) (f g : T -> res U), agree_ok same0 x y -> (forall a b, same0 a b -> agree_ok same (f a) (g b)) -> agree_ok same (bind x f) (bind y g).
Proof. intros T U same0 same [a| |] [b| |] f g H K; cbn in *; auto; try easy; try (destruct (f a); easy); try (destruct (g b); easy). Qed.
Lemma content_type_order : forall i, agree_ok same_type (content_type A i) (content_type B i).
Proof.
  intros i. unfold content_type. apply agree_ok_bind_same; [reflexivity|]. intros [i1 u1]. apply agree_ok_bind_same; [reflexivity|]. intros [i2 u2].
  apply agree_ok_bind_same; [reflexivity|]. intros [i3 t]. apply agree_ok_bind_same; [reflexivity|]. intros [i4 u4]. apply agree_ok_bind_same; [reflexivity|]. intros [i5 s]. cbv zeta.
  apply agree_ok_bind_same; [reflexivity|]. intros [i6 raw]. apply agree_ok_bind with (same0 := same_map); [apply collect_order|]. intros l l' Hl.
  apply agree_ok_bind_same; [reflexivity|]. intros [i7 u7]. apply agree_ok_bind_same; [reflexivity|]. intros [i8 u8]. cbn. auto.
Qed.
Definition same_disp (x y : bytes * disposition_t) : Prop := fst x = fst y /\ same_disposition_t (snd x) (snd y).
Lemma set_items_same : forall items d d', same_disposition_t d d' -> same_disposition_t (fold_left set_item items d) (fold_left set_item items d').
Proof. induction items as [|x items IH]; intros d d' H; auto. cbn [fold_left]. apply IH. destruct H. destruct x; cbn; now constructor. Qed.
Lemma disposition_order : forall i, agree_ok same_disp (content_disposition A i) (content_disposition B i).
Proof.
  intros i. unfold content_disposition. apply agree_ok_bind_same; [reflexivity|]. intros [i1 u1]. apply agree_ok_bind_same; [reflexivity|]. intros [i2 u2].
  apply agree_ok_bind_same; [reflexivity|]. intros [i3 k]. apply agree_ok_bind_same; [reflexivity|]. intros [i4 items].
  apply agree_ok_bind with (same0 := same_map); [apply collect_order|]. intros l l' Hl.
  apply agree_ok_bind_same; [reflexivity|]. intros [i7 u7]. apply agree_ok_bind_same; [reflexivity|]. intros [i8 u8]. cbn. split; [reflexivity|]. apply set_items_same. now constructor.
Qed.

(* ---- everything else is the same function ---- *)
Lemma bind_same : forall T U (x y : res T) (f g : T -> res U), x = y -> (forall a, f a = g a) -> bind x f = bind y g.
Proof. intros T U x y f g -> H. destruct y; cbn; auto. Qed.
Lemma attempt_same : forall T U (x y : res T) (f g : T -> res U) a b, x = y -> (forall a, f a = g a) -> a = b -> attempt x f a = attempt y g b.
Proof. intros T U x y f g a b -> H ->. destruct y; cbn; auto. Qed.
Definition same_parser {T} (p q : parser T) : Prop := forall i, p i = q i.
Lemma optional_same : forall T (p q : parser T), same_parser p q -> same_parser (optional p) (optional q).
Proof. intros T p q H i. unfold optional. now rewrite H. Qed.
Lemma match_same : forall T (l l' : list (parser T)), Forall2 same_parser l l' -> same_parser (match_parsers l) (match_parsers l').
Proof. intros T l l' H. induction H as [|p q l l' H Hl IH]; intros i; [reflexivity|]. cbn [match_parsers]. rewrite H. apply attempt_same; auto. Qed.
Lemma pmap_same : forall T U (f : T -> U) (p q : parser T), same_parser p q -> same_parser (pmap f p) (pmap f q).
Proof. intros T U f p q H i. unfold pmap. now rewrite H. Qed.
Lemma many_same : forall T (p q : parser T), same_parser p q -> same_parser (many p) (many q).
Proof.
  intros T p q H i. unfold many. generalize (S (length i)). intros n. revert i. induction n as [|n IH]; intros i; [reflexivity|]. cbn [many_fuel]. rewrite H.
  apply attempt_same; auto. intros [i' a]. now rewrite IH.
Qed.
Lemma many1_same : forall T (p q : parser T), same_parser p q -> same_parser (many1 p) (many1 q).
Proof. intros T p q H i. unfold many1. rewrite H. apply bind_same; auto. intros [i' a]. now rewrite (many_same _ _ _ H). Qed.
Lemma prefixed_same : forall T (p q : parser T) e, same_parser p q -> same_parser (prefixed p e) (prefixed q e).
Proof. intros T p q e H i. unfold prefixed. destruct (starts_with i e); auto. apply bind_same; auto. Qed.
Lemma header_same : forall T e1 e2 m (p q : parser T) m', same_parser p q -> same_parser (header A e1 e2 m p m') (header B e1 e2 m q m').
Proof. intros T e1 e2 m p q m' H i. unfold header. apply bind_same; [reflexivity|]. intros [i1 u]. now rewrite H. Qed.
Lemma resent_same : forall T m (p q : parser T), same_parser p q -> same_parser (resent A m p) (resent B m q).
Proof. intros T m p q H i. unfold resent. apply bind_same; [reflexivity|]. intros [i1 u]. apply H. Qed.
Ltac st := repeat (first [reflexivity | apply bind_same; [try reflexivity|intros [? ?]] | apply attempt_same; [try reflexivity|intros [? ?]|]]).

Lemma decode_base64_order : forall d, decode_base64 A d = decode_base64 B d.
Proof.
  intros d. unfold decode_base64. generalize (S (length d)) as n. generalize 0 at 1 3 as i. generalize 0 as o. intros o i n. revert d i o. induction n as [|n IH]; intros d i o; [reflexivity|]. cbn [decode_base64_loop]. cbv zeta.
  apply bind_same; [reflexivity|]. intros [[i1 o1] [b1|]]; [|reflexivity]. apply bind_same; [reflexivity|]. intros [[i2 o2] [b2|]]; [|reflexivity].
  apply bind_same; [reflexivity|]. intros [[i3 o3] [b3|]]; [|reflexivity]. apply bind_same; [reflexivity|]. intros [[i4 o4] [b4|]]; [|reflexivity].
  apply bind_same; [reflexivity|]. intros b4'. apply bind_same; [reflexivity|]. intros p. apply bind_same; [reflexivity|]. intros v. apply bind_same; [reflexivity|]. intros d'.
  apply bind_same; [reflexivity|]. intros [d2 o5]. apply IH.
Qed.
Lemma encoded_word_order : same_parser (encoded_word A) (encoded_word B).
Proof.
  intros i. unfold encoded_word. do 8 (apply bind_same; [reflexivity|]; intros [? ?]).
  apply bind_same; [now rewrite decode_base64_order, !decode_header_qp_spec|]. intros v. apply bind_same; [|reflexivity]. destruct (find_charset _); reflexivity.
Qed.
Lemma phrase_word_order : same_parser (phrase_word A) (phrase_word B).
Proof.
  unfold phrase_word. change (f_mime A) with (f_mime B). destruct (f_mime B); [|intros i; reflexivity]. apply match_same. constructor; [|repeat constructor; intros i; reflexivity].
  intros i. apply bind_same; [reflexivity|]. intros [i1 u]. apply encoded_word_order.
Qed.
Lemma phrase_order : same_parser (phrase A) (phrase B).
Proof. apply many1_same, phrase_word_order. Qed.
Lemma mime_unstructured_order : same_parser (mime_unstructured A) (mime_unstructured B).
Proof.
  assert (L : forall n f i, mime_unstructured_loop A n f i = mime_unstructured_loop B n f i).
  { induction n as [|n IH]; intros f i; [reflexivity|]. cbn [mime_unstructured_loop]. apply attempt_same; [|intros [i1 [t f']]; now rewrite IH|reflexivity].
    unfold mime_unstructured_step. apply bind_same; [reflexivity|]. intros [i1 w]. apply attempt_same; [apply encoded_word_order|reflexivity|reflexivity]. }
  intros i. unfold mime_unstructured. now rewrite L.
Qed.
Lemma name_addr_order : same_parser (name_addr A) (name_addr B).
Proof. intros i. unfold name_addr. apply bind_same; [apply optional_same, phrase_order|]. intros [i1 n]. reflexivity. Qed.
Lemma mailbox_order : same_parser (mailbox A) (mailbox B).
Proof. apply match_same. constructor; [apply name_addr_order|]. constructor; [intros i; reflexivity|constructor]. Qed.
Lemma mailbox_list_order : same_parser (mailbox_list A) (mailbox_list B).
Proof. intros i. unfold mailbox_list. apply bind_same; [apply mailbox_order|]. intros [i1 m]. apply bind_same; [apply many_same, prefixed_same, mailbox_order|reflexivity]. Qed.
Lemma group_order : same_parser (group A) (group B).
Proof.
  intros i. unfold group. apply bind_same; [apply phrase_order|]. intros [i1 n]. apply bind_same; [reflexivity|]. intros [i2 u]. apply bind_same; [|reflexivity].
  now rewrite mailbox_list_order.
Qed.
Lemma address_order : same_parser (address A) (address B).
Proof. intros i. unfold address. apply attempt_same; [apply mailbox_order|reflexivity|]. apply attempt_same; [apply group_order|reflexivity|reflexivity]. Qed.
Lemma address_list_order : same_parser (address_list A) (address_list B).
Proof. intros i. unfold address_list. apply bind_same; [apply address_order|]. intros [i1 m]. apply bind_same; [apply many_same, prefixed_same, address_order|reflexivity]. Qed.
Lemma bcc_order : same_parser (bcc_value A) (bcc_value B).
Proof. intros i. unfold bcc_value. apply attempt_same; [apply address_list_order|reflexivity|reflexivity]. Qed.
Lemma text_order : same_parser (text_value A) (text_value B).
Proof. unfold text_value. change (f_mime A) with (f_mime B). destruct (f_mime B); [apply mime_unstructured_order|intros i; reflexivity]. Qed.
Lemma keywords_order : same_parser (keywords_value A) (keywords_value B).
Proof. intros i. unfold keywords_value. apply bind_same; [apply phrase_order|]. intros [i1 m]. apply bind_same; [apply many_same, prefixed_same, phrase_order|reflexivity]. Qed.
Lemma unknown_order : same_parser (unknown A) (unknown B).
Proof.
  intros i. unfold unknown. do 2 (apply bind_same; [reflexivity|]; intros [? ?]). apply bind_same; [|reflexivity].
  change (f_unrecognized_headers A) with (f_unrecognized_headers B). destruct (f_unrecognized_headers B); [apply mime_unstructured_order|reflexivity].
Qed.
Lemma description_order : same_parser (content_description A) (content_description B).
Proof. intros i. unfold content_description. apply bind_same; [reflexivity|]. intros [i1 u]. apply bind_same; [apply mime_unstructured_order|reflexivity]. Qed.
Lemma resent_order : same_parser (resent_field A) (resent_field B).
Proof.
  apply match_same. constructor; [intros i; reflexivity|]. constructor; [apply pmap_same, resent_same, header_same, mailbox_list_order|].
  constructor; [apply pmap_same, resent_same, header_same, mailbox_order|]. constructor; [apply pmap_same, resent_same, header_same, address_list_order|].
  constructor; [apply pmap_same, resent_same, header_same, address_list_order|]. constructor; [apply pmap_same, resent_same, header_same, bcc_order|].
  constructor; [intros i; reflexivity|constructor].
Qed.
Lemma block_order : same_parser (trace_block A) (trace_block B).
Proof. intros i. unfold trace_block. apply bind_same; [reflexivity|]. intros [i1 [p r]]. apply bind_same; [apply many_same, resent_order|reflexivity]. Qed.

(* ---- messages ---- *)
Lemma agree_bind : forall T U (same0 : T -> T -> Prop) (same : U -> U -> Prop) (x y : res T) (f g : T -> res U), agree same0 x y -> (forall a b, same0 a b -> agree same (f a) (g b)) -> agree same (bind x f) (bind y g).
Proof. intros T U same0 same [a| |] [b| |] f g H K; cbn in *; auto; try easy; try (destruct (f a); easy); try (destruct (g b); easy). Qed.
Lemma agree_e_bind : forall T U (same0 : T -> T -> Prop) (same : U -> U -> Prop) (x y : res T) (f g : T -> res U), agree_e same0 x y -> (forall a b, same0 a b -> agree_e same (f a) (g b)) -> agree_e same (bind x f) (bind y g).
Proof. intros T U same0 same [a| |] [b| |] f g H K; cbn in *; auto; try easy; try (destruct (f a); easy); try (destruct (g b); easy). Qed.
Lemma agree_e_refl : forall T (same : T -> T -> Prop) (x y : res T), (forall a, same a a) -> x = y -> agree_e same x y.
Proof. intros T same x y H ->. destruct y; cbn; auto. Qed.
Definition same_out {T} (same : T -> T -> Prop) (x y : bytes * T) : Prop := fst x = fst y /\ same (snd x) (snd y).
Definition agreeing {T} (same : T -> T -> Prop) (p q : parser T) : Prop := forall i, agree (same_out same) (p i) (q i).
Lemma same_agreeing : forall T (same : T -> T -> Prop) (p q : parser T), (forall a, same a a) -> same_parser p q -> agreeing same p q.
Proof. intros T same p q H K i. rewrite K. destruct (q i) as [[r a]| |]; cbn; auto. split; cbn; auto. Qed.
Lemma agreeing_match : forall T (same : T -> T -> Prop) l l', Forall2 (agreeing same) l l' -> forall i, agree_e (same_out same) (match_parsers l i) (match_parsers l' i).
Proof.
  intros T same l l' H i. induction H as [|p q l l' H Hl IH]; [reflexivity|]. cbn [match_parsers]. specialize (H i).
  destruct (p i) as [a| |], (q i) as [b| |]; cbn in *; auto; try easy; destruct (match_parsers l i), (match_parsers l' i); easy.
Qed.
Lemma agreeing_many : forall T (same : T -> T -> Prop) (p q : parser T), agreeing same p q -> forall i, agree_e (same_out (Forall2 same)) (many p i) (many q i).
Proof.
  intros T same p q H i. unfold many. generalize (S (length i)). intros n. revert i. induction n as [|n IH]; intros i; [reflexivity|]. cbn [many_fuel]. specialize (H i).
  destruct (p i) as [[r a]| |], (q i) as [[r' b]| |]; cbn in *; try easy; auto.
  - destruct H as [H1 H2]. cbn in *. subst r'. apply agree_e_bind with (same0 := same_out (Forall2 same)); [apply IH|]. intros [r1 l] [r2 l'] [K1 K2]. cbn in *. split; cbn; auto.
  - destruct (many_fuel n p r) as [[? ?]| |]; cbn; auto.
  - split; cbn; auto.
Qed.
Lemma agree_of_ok : forall T (same : T -> T -> Prop) x y, agree_ok same x y -> agree same x y.
Proof. intros T same [a| |] [b| |] H; cbn in *; auto. Qed.
Lemma agree_of_e : forall T (same : T -> T -> Prop) x y, agree_e same x y -> agree same x y.
Proof. intros T same [a| |] [b| |] H; cbn in *; auto. Qed.

Lemma any_field_order : forall i, agree_e (same_out same_field) (any_field A i) (any_field B i).
Proof.
  apply agreeing_match. unfold field_parsers.
  assert (C : forall b (p q : parser field) l l', agreeing same_field p q -> Forall2 (agreeing same_field) l l' -> Forall2 (agreeing same_field) (cfg b p ++ l) (cfg b q ++ l')).
  { intros [|] p q l l' H K; cbn; auto. }
  assert (S : forall T (f : T -> field) (p q : parser T), same_parser p q -> agreeing same_field (pmap f p) (pmap f q)).
  { intros T f p q H. apply same_agreeing; [constructor|]. now apply pmap_same. }
  apply C; [apply S; intros i; reflexivity|]. apply C; [apply S, header_same, mailbox_list_order|]. apply C; [apply S, header_same, mailbox_order|].
  apply C; [apply S, header_same, address_list_order|]. apply C; [apply S, header_same, address_list_order|]. apply C; [apply S, header_same, address_list_order|].
  apply C; [apply S, header_same, bcc_order|]. apply C; [apply S; intros i; reflexivity|]. apply C; [apply S; intros i; reflexivity|]. apply C; [apply S; intros i; reflexivity|].
  apply C; [apply S, header_same, text_order|]. apply C; [apply S, header_same, text_order|]. apply C; [apply S; intros i; reflexivity|].
  apply C. { intros i. apply agree_bind with (same0 := same_type); [apply agree_of_ok, content_type_order|]. intros [r [[t s] l]] [r' [[t' s'] l']] (-> & -> & -> & H). split; cbn; auto. now constructor. }
  apply C; [apply S; intros i; reflexivity|]. apply C; [apply S; intros i; reflexivity|]. apply C; [apply S, description_order|].
  apply C. { intros i. apply agree_bind with (same0 := same_disp); [apply agree_of_ok, disposition_order|]. intros [r d] [r' d'] [H1 H]. split; [exact H1|]. cbn in *. destruct H. now constructor. }
  apply C; [apply S, header_same, keywords_order|]. constructor; [apply S, unknown_order|constructor].
Qed.
Lemma Forall2_refl : forall T (same : T -> T -> Prop) l, (forall a, same a a) -> Forall2 same l l.
Proof. intros T same l H. induction l; auto. Qed.
Lemma fields_order : forall i, agree_e (same_out (Forall2 same_field)) (fields A i) (fields B i).
Proof.
  intros i. unfold fields. apply agree_e_bind with (same0 := eq).
  - apply agree_e_refl; [reflexivity|]. change (f_trace A) with (f_trace B). destruct (f_trace B); [apply many_same, block_order|reflexivity].
  - intros [r t] ? <-. apply agree_e_bind with (same0 := same_out (Forall2 same_field)).
    + apply agreeing_many. intros j. apply agree_of_e, any_field_order.
    + intros [r1 l] [r2 l'] [K1 K2]. cbn in *. split; cbn; auto. apply Forall2_app; auto. apply Forall2_refl. constructor.
Qed.
Definition same_message (x y : list field * option bytes) : Prop := Forall2 same_field (fst x) (fst y) /\ snd x = snd y.
Lemma message_order : forall i, agree_e same_message (parse_message A i) (parse_message B i).
Proof.
  intros i. unfold parse_message. apply agree_e_bind with (same0 := same_out (Forall2 same_field)); [apply fields_order|]. intros [r l] [r' l'] [H1 H2]. cbn in *. subst r'.
  apply agree_e_bind with (same0 := eq); [apply agree_e_refl; reflexivity|]. intros b ? <-. split; auto.
Qed.

Definition same_ct (x y : content_type_t * bytes * list (bytes * bytes)) : Prop := fst x = fst y /\ same_map (snd x) (snd y).
Inductive same_acc : acc -> acc -> Prop :=
| same_acc_intro : forall a0 a1 a2 a3 a4 a5 a6 a7 a8 a9 a10 a11 a12 a13 a14 a15 a16 a17 a18 a19 a20 a15' a19', same_option same_ct a15 a15' -> same_option same_disposition_t a19 a19' -> same_acc
    {| v_from := a0; v_sender := a1; v_subject := a2; v_date := a3; v_to := a4; v_cc := a5; v_bcc := a6; v_message_id := a7; v_in_reply_to := a8; v_references := a9; v_reply_to := a10; v_comments := a11; v_keywords := a12; v_trace := a13; v_mime_version := a14; v_content_type := a15; v_cte := a16; v_content_id := a17; v_content_description := a18; v_content_disposition := a19; v_unknown := a20 |}
    {| v_from := a0; v_sender := a1; v_subject := a2; v_date := a3; v_to := a4; v_cc := a5; v_bcc := a6; v_message_id := a7; v_in_reply_to := a8; v_references := a9; v_reply_to := a10; v_comments := a11; v_keywords := a12; v_trace := a13; v_mime_version := a14; v_content_type := a15'; v_cte := a16; v_content_id := a17; v_content_description := a18; v_content_disposition := a19'; v_unknown := a20 |}.
Lemma set_field_order : forall f f' a a', same_field f f' -> same_acc a a' -> agree_e same_acc (set_field a f) (set_field a' f').
Proof.
  intros f f' a a' Hf Ha. destruct Hf as [f|t s l l' Hl|k f c m r l l' Hl].
  - destruct Ha as [a0 a1 a2 a3 a4 a5 a6 a7 a8 a9 a10 a11 a12 a13 a14 a15 a16 a17 a18 a19 a20 x y Hx Hy]. destruct f; cbn [set_field v_from v_sender v_subject v_date v_to v_cc v_bcc v_message_id v_in_reply_to v_references v_reply_to v_mime_version v_cte v_content_id v_content_description];
    lazymatch goal with
    | |- context [set_once (v_content_type _) _ _] => destruct Hx as [|p q Hx]; cbn [v_content_type set_once bind agree_e]; [constructor; auto; constructor; split; [reflexivity|intros ?; reflexivity]|reflexivity]
    | |- context [set_once (v_content_disposition _) _ _] => destruct Hy as [|p q Hy]; cbn [v_content_disposition set_once bind agree_e]; [constructor; auto; constructor; destruct d; constructor; intros ?; reflexivity|reflexivity]
    | |- context [set_once ?o _ _] => destruct o; cbn [set_once bind agree_e]; [reflexivity|constructor; assumption]
    | |- _ => cbn [agree_e]; constructor; assumption
    end.
  - destruct Ha as [a0 a1 a2 a3 a4 a5 a6 a7 a8 a9 a10 a11 a12 a13 a14 a15 a16 a17 a18 a19 a20 x y Hx Hy]. cbn [set_field v_content_type]. destruct Hx as [|p q Hx]; cbn [set_once bind agree_e]; [|reflexivity]. constructor; auto. constructor. split; auto.
  - destruct Ha as [a0 a1 a2 a3 a4 a5 a6 a7 a8 a9 a10 a11 a12 a13 a14 a15 a16 a17 a18 a19 a20 x y Hx Hy]. cbn [set_field v_content_disposition]. destruct Hy as [|p q Hy]; cbn [set_once bind agree_e]; [|reflexivity]. constructor; auto. constructor. now constructor.
Qed.
Lemma set_fields_order : forall fs fs', Forall2 same_field fs fs' -> forall a a', same_acc a a' -> agree_e same_acc (set_fields a fs) (set_fields a' fs').
Proof.
  intros fs fs' H. induction H as [|f f' fs fs' Hf H IH]; intros a a' Ha; [exact Ha|]. cbn [set_fields]. eapply agree_e_bind; [apply set_field_order; eauto|]. intros; now apply IH.
Qed.
Lemma decode_value_order : forall v e, decode_value A v e = decode_value B v e.
Proof. intros v []; try reflexivity; unfold decode_value; [now rewrite !decode_qp_spec|apply decode_base64_order]. Qed.
Lemma same_map_refl : forall l, same_map l l.
Proof. intros l n. reflexivity. Qed.
Lemma finish_order : forall a a' b, same_acc a a' -> agree_e same_email (finish A a b) (finish B a' b).
Proof.
  intros a a' b Ha. destruct Ha as [a0 a1 a2 a3 a4 a5 a6 a7 a8 a9 a10 a11 a12 a13 a14 a15 a16 a17 a18 a19 a20 x y Hx Hy]. unfold finish.
  cbn [v_from v_sender v_subject v_date v_to v_cc v_bcc v_message_id v_in_reply_to v_references v_reply_to v_comments v_keywords v_trace v_mime_version v_content_type v_cte v_content_id v_content_description v_content_disposition v_unknown].
  apply agree_e_bind with (same0 := eq); [apply agree_e_refl; reflexivity|]. intros fr ? <-. apply agree_e_bind with (same0 := eq); [apply agree_e_refl; reflexivity|]. intros da ? <-.
  apply agree_e_bind with (same0 := eq); [apply agree_e_refl; reflexivity|]. intros se ? <-. apply agree_e_bind with (same0 := same_option same_entity).
  - change (f_mime A) with (f_mime B). destruct (f_mime B); [|constructor].
    assert (T : exists t s p p', match a15 with Some x => x | None => default_content_type end = (t, s, p) /\ match x with Some x => x | None => default_content_type end = (t, s, p') /\ same_map p p').
    { destruct Hx as [|[[t s] p] [[t' s'] p'] [H1 H2]]; [do 4 eexists; split; [reflexivity|]; split; [reflexivity|apply same_map_refl]|]. cbn in H1, H2. injection H1 as -> ->. eauto 8. }
    destruct T as (t & s & p & p' & -> & -> & Hp).
    apply agree_e_bind with (same0 := eq).
    + apply agree_e_refl; [reflexivity|]. destruct b as [b|]; [|reflexivity]. now rewrite decode_value_order.
    + intros v ? <-. cbn. constructor. now constructor.
  - intros m m' Hm. cbn. change (f_mime A) with (f_mime B). now constructor.
Qed.
Lemma parse_order : forall i, agree_e same_email (parse A i) (parse B i).
Proof.
  intros i. unfold parse. apply agree_e_bind with (same0 := same_message); [apply message_order|]. intros [fs b] [fs' b'] [H1 H2]. cbn in H1, H2. subst b'.
  apply agree_e_bind with (same0 := same_acc); [apply set_fields_order; auto; constructor; constructor|]. intros a a' Ha. now apply finish_order.
Qed.

(* ---- entities ---- *)
Inductive same_header : entity_header -> entity_header -> Prop :=
| same_header_refl : forall x, same_header x x
| same_header_type : forall t s l l', same_map l l' -> same_header (HType t s l) (HType t s l')
| same_header_disposition : forall d d', same_disposition_t d d' -> same_header (HDisposition d) (HDisposition d').
Lemma entity_header_order : forall i, agree_e (same_out same_header) (entity_header_parser A i) (entity_header_parser B i).
Proof.
  apply agreeing_match.
  assert (S : forall T (f : T -> entity_header) (p q : parser T), same_parser p q -> agreeing same_header (pmap f p) (pmap f q)).
  { intros T f p q H. apply same_agreeing; [constructor|]. now apply pmap_same. }
  constructor; [apply S; intros i; reflexivity|].
  constructor. { intros i. apply agree_bind with (same0 := same_type); [apply agree_of_ok, content_type_order|]. intros [r [[t s] l]] [r' [[t' s'] l']] (-> & -> & -> & H). split; cbn; auto. now constructor. }
  constructor; [apply S; intros i; reflexivity|]. constructor; [apply S, description_order|].
  constructor. { intros i. apply agree_bind with (same0 := same_disp); [apply agree_of_ok, disposition_order|]. intros [r d] [r' d'] [H1 H]. split; [exact H1|]. now constructor. }
  constructor; [apply S, unknown_order|constructor].
Qed.
Inductive same_hacc : header_acc -> header_acc -> Prop :=
| same_hacc_intro : forall e t t' i d x x' a, same_option same_ct t t' -> same_option same_disposition_t x x' -> same_hacc
    {| h_encoding := e; h_type := t; h_id := i; h_description := d; h_disposition := x; h_additional := a |}
    {| h_encoding := e; h_type := t'; h_id := i; h_description := d; h_disposition := x'; h_additional := a |}.
Lemma same_disposition_refl : forall d, same_disposition_t d d.
Proof. intros []. constructor. apply same_map_refl. Qed.
Lemma set_headers_order : forall hs hs', Forall2 same_header hs hs' -> forall a a', same_hacc a a' -> same_hacc (fold_left set_header hs a) (fold_left set_header hs' a').
Proof.
  intros hs hs' H. induction H as [|x y hs hs' Hx H IH]; intros a a' Ha; auto. cbn [fold_left]. apply IH. destruct Ha. destruct Hx as [x|t0 s l l' Hl|u u' Hu].
  - destruct x; cbn; constructor; auto; constructor; [split; auto; apply same_map_refl|apply same_disposition_refl].
  - cbn. constructor; auto. constructor. split; auto.
  - cbn. constructor; auto. now constructor.
Qed.
Lemma raw_entity_order : forall i, agree_e same_entity (raw_entity A i) (raw_entity B i).
Proof.
  intros i. unfold raw_entity, header_part.
  apply agree_e_bind with (same0 := fun x y => fst x = fst y /\ same_hacc (snd x) (snd y)).
  - apply agree_e_bind with (same0 := same_out (Forall2 same_header)); [apply agreeing_many; intros j; apply agree_of_e, entity_header_order|].
    intros [r l] [r' l'] [H1 H2]. cbn in H1, H2. subst r'. cbv zeta.
    assert (K : same_hacc (fold_left set_header l header_acc0) (fold_left set_header l' header_acc0)) by (apply set_headers_order; auto; constructor; constructor).
    destruct r as [|c r]; [cbn; auto|]. apply agree_e_bind with (same0 := eq); [apply agree_e_refl; reflexivity|]. intros [r1 u] ? <-. cbn. auto.
  - intros [n a] [n' a'] [H1 H2]. cbn in H1, H2. subst n'. apply agree_e_bind with (same0 := eq); [apply agree_e_refl; reflexivity|]. intros k ? <-.
    apply agree_e_bind with (same0 := eq); [apply agree_e_refl; reflexivity|]. intros v ? <-. cbv zeta. destruct H2 as [e t t' id d x x' ad Ht Hx]. cbn [h_encoding h_type h_id h_description h_disposition h_additional].
    assert (T : exists t1 s p p', match t with Some x => x | None => default_content_type end = (t1, s, p) /\ match t' with Some x => x | None => default_content_type end = (t1, s, p') /\ same_map p p').
    { destruct Ht as [|[[t s] p] [[t' s'] p'] [H1 H2]]; [do 4 eexists; split; [reflexivity|]; split; [reflexivity|apply same_map_refl]|]. cbn in H1, H2. injection H1 as -> ->. eauto 8. }
    destruct T as (t1 & s & p & p' & -> & -> & Hp).
    apply agree_e_bind with (same0 := eq); [apply agree_e_refl; [reflexivity|apply decode_value_order]|]. intros w ? <-. cbn. now constructor.
Qed.
Lemma raw_entities_order : forall l, agree_e (Forall2 same_entity) (raw_entities A l) (raw_entities B l).
Proof.
  induction l as [|p l IH]; [constructor|]. cbn [raw_entities]. apply agree_e_bind with (same0 := same_entity); [apply raw_entity_order|]. intros e e' He.
  apply agree_e_bind with (same0 := Forall2 same_entity); auto. intros es es' Hes. cbn. auto.
Qed.
Lemma entity_order : forall r r', same_entity r r' -> agree_e same_parsed (entity A r) (entity B r').
Proof.
  intros r r' H. destruct H as [t s d i p p' x x' v a Hp Hx]. unfold entity. cbn [e_mime_type e_subtype e_parameters e_value]. destruct t; try (cbn; constructor; fail).
  - rewrite (Hp (bs "charset")). destruct (map_get p' (bs "charset")) as [c|]; [|constructor]. destruct (find_charset (lowercase c)) as [k|]; [|constructor].
    apply agree_e_bind with (same0 := eq); [apply agree_e_refl; reflexivity|]. intros w ? <-. constructor.
  - apply agree_e_bind with (same0 := Forall2 same_entity); [|intros l l' Hl; now constructor]. unfold parse_multipart. rewrite (Hp (bs "boundary")).
    apply agree_e_bind with (same0 := eq); [apply agree_e_refl; reflexivity|]. intros b ? <-.
    apply agree_e_bind with (same0 := eq); [apply agree_e_refl; reflexivity|]. intros [i1 parts] ? <-.
    apply agree_e_bind with (same0 := eq); [apply agree_e_refl; reflexivity|]. intros [i2 last] ? <-.
    apply agree_e_bind with (same0 := eq); [apply agree_e_refl; reflexivity|]. intros [i3 ps] ? <-. apply raw_entities_order.
Qed.
End Order.

Lemma with_order_ok : forall E h, env_ok E -> an_order h -> env_ok (with_order E h).
Proof. intros E h HE Hh. destruct HE. constructor; auto. Qed.
Lemma same_result_of : forall T (same : T -> T -> Prop) x y, agree_e same x y ->
  (exists a, x = Ok a) \/ (exists e, x = Err e) -> (exists a, y = Ok a) \/ (exists e, y = Err e) -> same_result same x y.
Proof. intros T same x y H [[a ->]|[e ->]] [[b ->]|[e' ->]]; exact H. Qed.
Lemma parse_order_result : forall E h h' data, env_ok E -> debug E = false -> an_order h -> an_order h' ->
  same_result same_email (parse (with_order E h) data) (parse (with_order E h') data).
Proof. intros E h h' data HE Hd Hh Hh'. apply same_result_of; [now apply parse_order| |]; (apply parse_total; [now apply with_order_ok|left; exact Hd]). Qed.
Lemma raw_entity_order_result : forall E h h' data, env_ok E -> debug E = false -> an_order h -> an_order h' ->
  same_result same_entity (raw_entity (with_order E h) data) (raw_entity (with_order E h') data).
Proof. intros E h h' data HE Hd Hh Hh'. apply same_result_of; [now apply raw_entity_order| |]; (apply raw_entity_total; [now apply with_order_ok|exact Hd]). Qed.
Lemma entity_order_result : forall E h h' r r', env_ok E -> debug E = false -> an_order h -> an_order h' -> same_entity r r' ->
  same_result same_parsed (entity (with_order E h) r) (entity (with_order E h') r').
Proof. intros E h h' r r' HE Hd Hh Hh' Hr. apply same_result_of; [now apply entity_order| |]; (apply entity_total; [now apply with_order_ok|exact Hd]). Qed.

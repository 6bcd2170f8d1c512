(* C64: the size of emails and of their parts. *)
From Coq Require Import Lia Permutation.
From Verif Require Import Base Utf8 Time Address Percent MimeFields Fields Message Entity Email Combinators Charset MultipartProofs.
From Verif Require Import Rfc5322 Rfc2047 CodecSpec RfcFields EmailSpec MultipartSpec EntitySpec TextSpec SizeSpec Envs Post ParamProofs SoundMessage EntityProofs TextFacts SizeFacts.
Local Open Scope nat_scope.
Local Ltac lia := unfold bytes, byte in *; Lia.lia.
Local Ltac nia := unfold bytes, byte in *; Lia.nia.

(* ---- maps have one entry per name ---- *)
Definition yields {A} (p : parser A) (Q : A -> Prop) : Prop := forall i r a, p i = Ok (r, a) -> Q a.
Lemma yields_pmap : forall A B (f : A -> B) (p : parser A) Q, yields p (fun a => Q (f a)) -> yields (pmap f p) Q.
Proof. intros A B f p Q H i r b. unfold pmap. destruct (p i) as [[r' a]|e|k] eqn:P; cbn; try discriminate. intros [= _ <-]. eapply H; eauto. Qed.
Lemma yields_match : forall A (ps : list (parser A)) Q, Forall (fun p => yields p Q) ps -> yields (match_parsers ps) Q.
Proof.
  intros A ps Q H. induction H as [|p ps Hp _ IH]; intros i r a; cbn [match_parsers]; [discriminate|]. destruct (p i) as [[r' a']|e|k] eqn:P; cbn; try discriminate; [intros [= _ <-]; eapply Hp; eauto|]. apply IH.
Qed.
Lemma yields_many : forall A (p : parser A) Q, yields p Q -> yields (many p) (Forall Q).
Proof.
  intros A p Q H i. unfold many. generalize (S (length i)) as n. intros n. revert i. induction n as [|n IH]; intros i r l; cbn [many_fuel]; [discriminate|].
  destruct (p i) as [[r' a]|e|k] eqn:P; cbn; [|intros [= _ <-]; constructor|discriminate]. destruct (many_fuel n p r') as [[r2 l2]|e|k] eqn:M; cbn; try discriminate. intros [= _ <-]. constructor; [eapply H; eauto|eapply IH; eauto].
Qed.
Lemma yields_cfg : forall A (b : bool) (p : parser A) Q l, (b = true -> yields p Q) -> Forall (fun p => yields p Q) l -> Forall (fun p => yields p Q) (cfg b p ++ l).
Proof. intros A [|] p Q l H HL; cbn; auto. Qed.

Lemma split_keyed : forall l pl cx, NoDup (map fst pl) -> NoDup (map fst (fst (split_parameters l pl cx))).
Proof.
  induction l as [|[[[n i] e] v] l IH]; intros pl cx H; [exact H|]. cbn [split_parameters]. destruct i as [i|]; [now apply IH|]. apply IH. now apply map_insert_NoDup.
Qed.
Lemma join_keyed : forall E ns cx pl l, NoDup (map fst pl) -> join_all E ns cx pl = Ok l -> NoDup (map fst l).
Proof.
  intros E ns. induction ns as [|n ns IH]; intros cx pl l H J; cbn [join_all] in J; [injection J as <-; exact H|]. destruct (map_get cx n) as [vs|]; [|eapply IH; eauto].
  destruct (join_segments E vs) as [[v|]|e|k]; cbn [bind] in J; try discriminate; (eapply IH; [|exact J]); [now apply map_insert_NoDup|exact H].
Qed.
Lemma collect_keyed : forall E raw l, collect_parameters E raw = Ok l -> NoDup (map fst l).
Proof.
  intros E raw l H. unfold collect_parameters in H. pose proof (split_keyed raw [] [] (NoDup_nil _)) as S. destruct (split_parameters raw [] []) as [pl cx]. eapply join_keyed; eauto.
Qed.
Local Ltac unbind H := repeat match type of H with bind ?x _ = _ => let X := fresh "X" in destruct x as [?|?|?] eqn:X; cbn [bind] in H; [|discriminate..]; try match type of H with (let (_, _) := ?y in _) = _ => destruct y end end.
Lemma type_keyed : forall E, yields (content_type E) (fun x => NoDup (map fst (snd x))).
Proof. intros E i r a H. unfold content_type in H. unbind H. injection H as _ <-. cbn [snd]. eapply collect_keyed; eauto. Qed.
Lemma set_item_map : forall items d, disp_unstructured (fold_left set_item items d) = disp_unstructured d.
Proof. induction items as [|x items IH]; intros d; [reflexivity|]. cbn [fold_left]. rewrite IH. now destruct x. Qed.
Lemma disposition_keyed : forall E, yields (content_disposition E) (fun d => NoDup (map fst (disp_unstructured d))).
Proof. intros E i r a H. unfold content_disposition in H. unbind H. injection H as _ <-. rewrite set_item_map. eapply collect_keyed; eauto. Qed.

Lemma fields_keyed : forall E, yields (fields E) (Forall keyed).
Proof.
  intros E i r fs H. unfold fields in H. destruct (if f_trace E then many (trace_block E) i else Ok (i, [])) as [[i1 t]|e|k] eqn:T; cbn [bind] in H; [|discriminate..].
  destruct (many (any_field E) i1) as [[i2 l]|e|k] eqn:L; cbn [bind] in H; [|discriminate..]. injection H as _ <-. apply Forall_app. split.
  - destruct (f_trace E); [|injection T as _ <-; constructor]. apply (yields_many _ (trace_block E) keyed) in T; [exact T|]. intros j r' a Ha. unfold trace_block in Ha. unbind Ha.
    repeat match type of Ha with context [let (_, _) := ?y in _] => destruct y end. unbind Ha. now injection Ha as _ <-.
  - apply (yields_many _ (any_field E) keyed) in L; [exact L|]. apply yields_match. unfold field_parsers.
    repeat (apply yields_cfg; [intros _; apply yields_pmap|]); try (constructor; [apply yields_pmap|constructor]); try (intros j r' a _; exact I).
    + intros j r' [a b] _. exact I.
    + intros j r' [[t0 s] p] Hp. exact (type_keyed E _ _ _ Hp).
    + intros j r' d Hd. exact (disposition_keyed E _ _ _ Hd).
    + intros j r' [a b] _. exact I.
Qed.
Lemma parse_keyed : forall E data e, env_ok E -> parse E data = Ok e -> exists fs b, message_text E data fs b /\ Forall keyed fs /\ email_of E fs b e.
Proof.
  intros E data e HE H. unfold parse in H. pose proof (sound_message E data HE) as M. destruct (parse_message E data) as [[fs b]|x|x] eqn:P; cbn [bind] in H; [|discriminate..].
  destruct M as [M _]. pose proof (assemble_spec E fs b) as A. cbv zeta in A. rewrite H in A. exists fs, b. split; [exact M|]. split; [|exact A].
  unfold parse_message in P. destruct (fields E data) as [[r fs']|x|x] eqn:F; cbn [bind] in P; [|discriminate..]. destruct (if f_mime E then mime_body r else body r) as [b'|x|x]; cbn [bind] in P; [|discriminate..].
  injection P as -> _. exact (fields_keyed E _ _ _ F).
Qed.

(* ---- emails ---- *)
Section Measure.
Variable mu : bytes -> nat.
Definition mass (l : list bytes) : nat := list_sum (map mu l).
Lemma mass_app : forall a b, mass (a ++ b) = mass a + mass b.
Proof. intros a b. unfold mass. rewrite map_app. apply list_sum_app. Qed.
Lemma mass_concat : forall A (g : A -> list bytes) l, mass (concat (map g l)) = total (fun a => mass (g a)) l.
Proof. intros A g l. induction l as [|x l IH]; [reflexivity|]. cbn [map concat]. rewrite mass_app, IH. reflexivity. Qed.
Definition field_mass (f : field) : nat := mass (field_texts f) + mass (field_strings f).
Lemma only_mass : forall A (sel : field -> option A) (g : A -> nat) fs, match only sel fs with Some a => g a | None => 0 end <= total g (pick sel fs).
Proof. intros A sel g fs. unfold only. destruct (pick sel fs) as [|a l]; cbn [hd_error]; [lia|]. rewrite total_cons. lia. Qed.
Lemma total_app : forall A (g : A -> nat) l l', total g (l ++ l') = total g l + total g l'.
Proof. intros A g l l'. unfold total. rewrite map_app. apply list_sum_app. Qed.
Lemma pick_cons : forall A (sel : field -> option A) f fs, pick sel (f :: fs) = opt_list (sel f) ++ pick sel fs.
Proof. reflexivity. Qed.
Definition box_mass (m : mailbox_t) : nat := mass (mailbox_texts m) + mass (mailbox_strings m).
Definition list_mass (l : list address_t) : nat := mass (concat (map address_texts l)) + mass (concat (map address_strings l)).
Definition from_mass (l : list mailbox_t) : nat := mass (concat (map mailbox_texts l)) + mass (concat (map mailbox_strings l)).
Definition type_mass (x : content_type_t * bytes * list (bytes * bytes)) : nat := mass (map_values (snd x)) + mass (type_strings (fst (fst x))) + mu (snd (fst x)) + mass (map fst (snd x)).
Lemma fields_mass : forall fs,
  total from_mass (pick is_from fs) + total box_mass (pick is_sender fs) + total mu (pick is_subject fs) +
  total list_mass (pick is_to fs) + total list_mass (pick is_cc fs) + total list_mass (pick is_bcc fs) + total list_mass (pick is_reply_to fs) +
  total mu (pick is_comments fs) + total (fun l => mass (concat l)) (pick is_keywords fs) + total (fun t => mass (trace_texts t) + mass (trace_strings t)) (pick is_trace fs) +
  total (fun x => mu (fst x) + mu (snd x)) (pick is_unknown fs) + total (fun i => mass (id_strings i)) (pick is_message_id fs) +
  total (fun l => mass (concat (map id_strings l))) (pick is_in_reply_to fs) + total (fun l => mass (concat (map id_strings l))) (pick is_references fs) +
  total type_mass (pick is_content_type fs) + total (fun i => mass (id_strings i)) (pick is_content_id fs) + total mu (pick is_content_description fs) +
  total (fun d => mass (disposition_texts d) + mass (disposition_strings d)) (pick is_content_disposition fs) <= total field_mass fs.
Proof.
  induction fs as [|f fs IH]; [cbn; lia|]. rewrite !pick_cons, !total_app, !total_cons. revert IH. generalize (total field_mass fs) as z.
  repeat match goal with |- context [total ?g (pick ?sel fs)] => generalize (total g (pick sel fs)); intros ? end. intros z IH. unfold field_mass.
  assert (N : mass [] = 0) by reflexivity. assert (O : forall v, mass [v] = mu v) by (intros v; unfold mass; cbn; lia).
  destruct f; cbn [is_from is_sender is_subject is_to is_cc is_bcc is_reply_to is_comments is_keywords is_trace is_unknown is_message_id is_in_reply_to is_references is_content_type is_content_id is_content_description is_content_disposition opt_list field_texts field_strings];
    rewrite ?total_cons; repeat match goal with |- context [total ?g []] => change (total g []) with 0 end; unfold type_mass, from_mass, box_mass, list_mass; cbn [fst snd]; rewrite ?mass_app, ?O, ?N; lia.
Qed.

Definition sender_mass (e : email) : nat := match sender e with Some m => box_mass m | None => 0 end.
Definition default_mass (E : env) : nat := if f_mime E then mu (bs "plain") + mu (bs "charset") + mu (bs "us-ascii") else 0.
Lemma opt_mass : forall (o : option bytes), mass (opt_list o) = match o with Some v => mu v | None => 0 end.
Proof. intros [v|]; [unfold mass; cbn; lia|reflexivity]. Qed.
Lemma list_masses : forall o, mass (opt_concat address_texts o) + mass (opt_concat address_strings o) = match o with Some l => list_mass l | None => 0 end.
Proof. intros [l|]; reflexivity. Qed.
Lemma type_masses : forall fs, type_mass (type_of (only is_content_type fs)) <= total type_mass (pick is_content_type fs) + (mu (bs "plain") + mu (bs "charset") + mu (bs "us-ascii")).
Proof.
  intros fs. pose proof (only_mass _ is_content_type type_mass fs) as H. destruct (only is_content_type fs) as [x|]; cbn [type_of]; [lia|]. unfold type_mass, mass, map_values, type_strings. cbn [fst snd map map_get].
  change (bytes_eqb (bs "charset") (bs "charset")) with true. cbn [opt_list concat app map list_sum fold_right]. lia.
Qed.
Lemma email_mass : forall E fs b e, email_of E fs b e -> mass (email_texts e ++ email_strings e) <= total field_mass fs + default_mass E + sender_mass e /\ sender_mass e <= total field_mass fs.
Proof.
  intros E fs b e H. pose proof (fields_mass fs) as T.
  assert (F : from_mass (from e) <= total from_mass (pick is_from fs)).
  { pose proof (of_from _ _ _ _ H) as K. destruct (f_from E); [|rewrite K; cbn; lia]. pose proof (only_mass _ is_from from_mass fs) as O. rewrite K in O. exact O. }
  assert (S : sender_mass e <= total box_mass (pick is_sender fs) + from_mass (from e)).
  { unfold sender_mass. pose proof (of_sender _ _ _ _ H) as K. destruct (f_sender E); [|rewrite K; lia]. destruct K as [-> _]. unfold sender_of. pose proof (only_mass _ is_sender box_mass fs) as O. destruct (only is_sender fs) as [m|]; [lia|].
    destruct (from e) as [|m [|m' l]]; [lia| |lia]. unfold from_mass, box_mass. cbn [map concat]. rewrite !app_nil_r. lia. }
  pose proof (only_mass _ is_subject mu fs) as O1. rewrite <- (of_subject _ _ _ _ H) in O1. pose proof (only_mass _ is_to list_mass fs) as O2. rewrite <- (of_to _ _ _ _ H) in O2.
  pose proof (only_mass _ is_cc list_mass fs) as O3. rewrite <- (of_cc _ _ _ _ H) in O3. pose proof (only_mass _ is_bcc list_mass fs) as O4. rewrite <- (of_bcc _ _ _ _ H) in O4.
  pose proof (only_mass _ is_reply_to list_mass fs) as O5. rewrite <- (of_reply_to _ _ _ _ H) in O5. pose proof (only_mass _ is_message_id (fun i => mass (id_strings i)) fs) as O6. rewrite <- (of_message_id _ _ _ _ H) in O6.
  pose proof (only_mass _ is_in_reply_to (fun l => mass (concat (map id_strings l))) fs) as O7. rewrite <- (of_in_reply_to _ _ _ _ H) in O7.
  pose proof (only_mass _ is_references (fun l => mass (concat (map id_strings l))) fs) as O8. rewrite <- (of_references _ _ _ _ H) in O8.
  rewrite <- !list_masses in *. rewrite <- opt_mass in O1.
  assert (C : mass (comments e) = total mu (pick is_comments fs)) by (rewrite (of_comments _ _ _ _ H); reflexivity).
  assert (K : mass (concat (keywords e)) = total (fun l => mass (concat l)) (pick is_keywords fs)).
  { rewrite (of_keywords _ _ _ _ H). generalize (pick is_keywords fs) as l. induction l as [|x l IH]; [reflexivity|]. cbn [concat]. rewrite concat_app, mass_app, IH. reflexivity. }
  assert (R : mass (concat (map trace_texts (trace_of e))) + mass (concat (map trace_strings (trace_of e))) = total (fun t => mass (trace_texts t) + mass (trace_strings t)) (pick is_trace fs)).
  { rewrite (of_trace _ _ _ _ H), !mass_concat. apply total_sum. }
  assert (U : mass (map snd (unknown_fields e)) + mass (map fst (unknown_fields e)) = total (fun x => mu (fst x) + mu (snd x)) (pick is_unknown fs)).
  { rewrite (of_unknown _ _ _ _ H). unfold mass. rewrite !map_map. fold (total (fun x : bytes * bytes => mu (snd x)) (pick is_unknown fs)). fold (total (fun x : bytes * bytes => mu (fst x)) (pick is_unknown fs)). rewrite total_sum. unfold total. f_equal. apply map_ext. intros x. lia. }
  assert (M : mass (match mime_entity e with Some r => entity_texts r | None => [] end) + mass (match mime_entity e with Some r => entity_strings r | None => [] end) <=
    total type_mass (pick is_content_type fs) + total (fun i => mass (id_strings i)) (pick is_content_id fs) + total mu (pick is_content_description fs) +
    total (fun d => mass (disposition_texts d) + mass (disposition_strings d)) (pick is_content_disposition fs) + default_mass E).
  { pose proof (of_mime _ _ _ _ H) as Q. unfold default_mass. destruct (f_mime E); [|rewrite Q; cbn; lia]. destruct Q as (v & _ & ->). unfold entity_texts, entity_strings. cbn [e_mime_type e_subtype e_description e_id e_parameters e_disposition e_additional_headers map].
    pose proof (only_mass _ is_content_description mu fs) as D1. pose proof (only_mass _ is_content_id (fun i => mass (id_strings i)) fs) as D2.
    pose proof (only_mass _ is_content_disposition (fun d => mass (disposition_texts d) + mass (disposition_strings d)) fs) as D3. pose proof (type_masses fs) as D4. unfold type_mass at 1 in D4.
    rewrite !mass_app, opt_mass. change (mass []) with 0. unfold mass at 4. cbn [map list_sum fold_right].
    assert (Z1 : mass (match only is_content_id fs with Some i => id_strings i | None => [] end) = match only is_content_id fs with Some i => mass (id_strings i) | None => 0 end) by now destruct (only is_content_id fs).
    assert (Z2 : mass (match only is_content_disposition fs with Some d => disposition_texts d | None => [] end) + mass (match only is_content_disposition fs with Some d => disposition_strings d | None => [] end) =
      match only is_content_disposition fs with Some d => mass (disposition_texts d) + mass (disposition_strings d) | None => 0 end) by now destruct (only is_content_disposition fs).
    rewrite Z1. lia. }
  assert (Z1 : mass (match sender e with Some m => mailbox_texts m | None => [] end) + mass (match sender e with Some m => mailbox_strings m | None => [] end) = sender_mass e) by (unfold sender_mass; now destruct (sender e)).
  assert (Z2 : mass (match message_id_of e with Some i => id_strings i | None => [] end) = match message_id_of e with Some i => mass (id_strings i) | None => 0 end) by now destruct (message_id_of e).
  assert (Z3 : forall o, mass (opt_concat id_strings o) = match o with Some l => mass (concat (map id_strings l)) | None => 0 end) by now intros [].
  split; [|lia]. unfold email_texts, email_strings. rewrite !mass_app. rewrite Z2, !Z3. unfold from_mass at 1 in F. lia.
Qed.

(* ---- parts ---- *)
Definition header_texts (h : entity_header) : list bytes :=
  match h with HType _ _ p => map_values p | HDescription d => [d] | HDisposition d => disposition_texts d | HOther _ v => [v] | _ => [] end.
Definition header_strings (h : entity_header) : list bytes :=
  match h with HType t s p => type_strings t ++ [s] ++ map fst p | HId i => id_strings i | HDisposition d => disposition_strings d | HOther n _ => [n] | _ => [] end.
Definition header_mass (h : entity_header) : nat := mass (header_texts h) + mass (header_strings h).
Definition lasts {A} (g : A -> nat) (f : entity_header -> option A) (hs : list entity_header) : nat := match last_some f hs with Some a => g a | None => 0 end.
Lemma lasts_cons : forall A (g : A -> nat) (f : entity_header -> option A) h hs, lasts g f (h :: hs) <= match f h with Some a => g a | None => 0 end + lasts g f hs.
Proof. intros A g f h hs. unfold lasts. cbn [last_some]. destruct (last_some f hs); destruct (f h); lia. Qed.
Lemma headers_mass : forall hs, lasts type_mass of_type hs + lasts (fun i => mass (id_strings i)) of_id hs + lasts mu of_description hs + lasts (fun d => mass (disposition_texts d) + mass (disposition_strings d)) of_disposition hs +
  (mass (map snd (concat (map (fun h => opt_list (of_other h)) hs))) + mass (map fst (concat (map (fun h => opt_list (of_other h)) hs)))) <= total header_mass hs.
Proof.
  induction hs as [|h hs IH]; [cbn; lia|]. rewrite total_cons. cbn [map concat]. rewrite !map_app, !mass_app.
  pose proof (lasts_cons _ type_mass of_type h hs) as L1. pose proof (lasts_cons _ (fun i => mass (id_strings i)) of_id h hs) as L2. pose proof (lasts_cons _ mu of_description h hs) as L3.
  pose proof (lasts_cons _ (fun d => mass (disposition_texts d) + mass (disposition_strings d)) of_disposition h hs) as L4.
  assert (N : mass [] = 0) by reflexivity. assert (O : forall v, mass [v] = mu v) by (intros v; unfold mass; cbn; lia). revert IH L1 L2 L3 L4.
  repeat match goal with |- context [lasts ?g ?f ?l] => generalize (lasts g f l); intros ? end. generalize (total header_mass hs) as z. intros z IH L1 L2 L3 L4. unfold header_mass.
  destruct h; cbn [of_type of_id of_description of_disposition of_other opt_list map fst snd header_texts header_strings] in *; unfold type_mass in *; cbn [fst snd] in *; rewrite ?mass_app, ?O, ?N in *; lia.
Qed.
Lemma part_mass : forall hs b r, part_of hs b r -> mass (entity_texts r ++ entity_strings r) <= total header_mass hs + (mu (bs "plain") + mu (bs "charset") + mu (bs "us-ascii")).
Proof.
  intros hs b r H. pose proof (headers_mass hs) as T. rewrite <- (of_part_other _ _ _ H) in T. unfold lasts in T. rewrite <- (of_part_id _ _ _ H), <- (of_part_description _ _ _ H), <- (of_part_disposition _ _ _ H) in T. rewrite <- opt_mass in T.
  assert (Y : type_mass (e_mime_type r, e_subtype r, e_parameters r) <= match last_some of_type hs with Some x => type_mass x | None => 0 end + (mu (bs "plain") + mu (bs "charset") + mu (bs "us-ascii"))).
  { rewrite (of_part_type _ _ _ H). destruct (last_some of_type hs) as [x|]; cbn [type_of]; [lia|]. unfold type_mass, mass, map_values, type_strings. cbn [fst snd map map_get].
    change (bytes_eqb (bs "charset") (bs "charset")) with true. cbn [opt_list concat app map list_sum fold_right]. lia. }
  unfold type_mass at 1 in Y. cbn [fst snd] in Y. unfold entity_texts, entity_strings. rewrite !mass_app. unfold mass at 6. cbn [map list_sum fold_right].
  assert (Z1 : mass (match e_id r with Some i => id_strings i | None => [] end) = match e_id r with Some i => mass (id_strings i) | None => 0 end) by now destruct (e_id r).
  assert (Z2 : mass (match e_disposition r with Some d => disposition_texts d | None => [] end) + mass (match e_disposition r with Some d => disposition_strings d | None => [] end) =
    match e_disposition r with Some d => mass (disposition_texts d) + mass (disposition_strings d) | None => 0 end) by now destruct (e_disposition r).
  rewrite Z1. lia.
Qed.
End Measure.

(* ---- the bounds ---- *)
Definition len : bytes -> nat := @length byte.
Definition one : bytes -> nat := fun _ => 1.
Lemma mass_one : forall l, mass one l = length l.
Proof. induction l as [|x l IH]; [reflexivity|]. unfold mass in *. cbn [map list_sum fold_right length]. unfold list_sum in IH. rewrite IH. reflexivity. Qed.
Lemma mass_len : forall l, mass len l = volume l.
Proof. reflexivity. Qed.
Section Bounds.
Variables (k : nat) (Hk : 1 <= k) (E : env) (HM : f_mime E = true -> expands k E) (HU : f_unrecognized_headers E = true -> f_mime E = true).
Lemma fields_bound : forall c fs, many_of (field_text E) c fs -> Forall keyed fs -> total (field_mass len) fs <= k * length c /\ total (field_mass one) fs <= length c.
Proof.
  intros c fs H HK. induction H as [|c f cs fs Hf _ IH]; [cbn; lia|]. inversion HK as [|x y K1 K2]; subst. destruct (IH K2) as [I1 I2]. destruct (field_small k Hk E HM HU _ _ Hf K1) as [S1 S2].
  assert (X1 : field_mass len f = volume (field_texts f) + volume (field_strings f)) by reflexivity. assert (X2 : field_mass one f = length (field_texts f) + length (field_strings f)) by (unfold field_mass; now rewrite !mass_one).
  rewrite !total_cons, X1, X2, app_length. split; nia.
Qed.
End Bounds.
Lemma transfer_len : forall enc b v, transfer_decoded enc b v -> length v <= 3 * length b.
Proof. intros enc b v [| | |b' v' H|]; [lia|lia|lia|apply base64_len in H; lia|eapply (qp_len (S _)); apply Nat.lt_succ_diag_r]. Qed.
Lemma sender_masses : forall mu e, mass mu (sender_contents e) = sender_mass mu e.
Proof. intros mu e. unfold sender_contents, sender_mass, box_mass. destruct (sender e); [apply mass_app|reflexivity]. Qed.
Definition extra (E : env) (n : nat) : nat := if f_mime E then n else 0.
Theorem email_size : forall k E D e, 1 <= k -> env_ok E -> (f_mime E = true -> 3 <= k /\ expands k E) -> parse E D = Ok e ->
  (volume (contents e) <= k * length D + extra E 20 + volume (sender_contents e) /\ volume (sender_contents e) <= k * length D) /\
  (length (contents e) <= length D + extra E 4 + length (sender_contents e) /\ length (sender_contents e) <= length D).
Proof.
  intros k E D e Hk HE HM H. destruct (parse_keyed E D e HE H) as (fs & b & M & K & O). clear H. destruct M as [c fs c' b M R].
  destruct (fields_bound k Hk E (fun m => proj2 (HM m)) (ok_unrecognized _ HE) _ _ M K) as [F1 F2].
  destruct (email_mass len E fs b e O) as [A1 A2]. destruct (email_mass one E fs b e O) as [B1 B2]. rewrite <- !sender_masses in *. rewrite mass_one in *. rewrite !mass_one in *. rewrite !mass_len in *.
  assert (DL : default_mass len E = extra E 20) by (unfold default_mass, extra; now destruct (f_mime E)). assert (DO : default_mass one E = extra E 3) by (unfold default_mass, extra; now destruct (f_mime E)). rewrite DL in A1. rewrite DO in B1.
  assert (V : volume (opt_list (body_of e) ++ match mime_entity e with Some r => [e_value r] | None => [] end) <= k * length c' /\
    length (opt_list (body_of e) ++ match mime_entity e with Some r => [e_value r] | None => [] end) <= length c' + extra E 1).
  { pose proof (of_body _ _ _ _ O) as Q1. pose proof (of_mime _ _ _ _ O) as Q2. unfold extra. destruct (f_mime E).
    - destruct (HM eq_refl) as [H3 _]. destruct Q2 as (v & Q2 & Q3). rewrite Q1, Q3. cbn [opt_list app e_value]. rewrite volume_one. cbn [length]. destruct R as [|b].
      + subst v. cbn. lia.
      + apply transfer_len in Q2. rewrite app_length. split; [nia|lia].
    - rewrite Q1, Q2, app_nil_r. destruct R as [|b]; cbn [opt_list]; [cbn; lia|]. rewrite volume_one, app_length. change (length CRLF) with 2. cbn [length]. split; [nia|lia]. }
  destruct V as [V1 V2]. unfold contents. rewrite app_assoc, volume_app, (app_length (email_texts e ++ email_strings e)), (app_length c), Nat.mul_add_distr_l. change (mass len (sender_contents e)) with (volume (sender_contents e)) in *. unfold extra in *. destruct (f_mime E); split; split; lia.
Qed.

(* ---- parts ---- *)
Definition keyed_header (h : entity_header) : Prop :=
  match h with HType _ _ p => NoDup (map fst p) | HDisposition d => NoDup (map fst (disp_unstructured d)) | _ => True end.
Lemma entity_header_keyed : forall E, yields (entity_header_parser E) keyed_header.
Proof.
  intros E. unfold entity_header_parser. apply yields_match. repeat (apply Forall_cons || apply Forall_nil); apply yields_pmap; try (intros j r' a _; exact I).
  - intros j r' [[t0 s] p] Hp. exact (type_keyed E _ _ _ Hp).
  - intros j r' d Hd. exact (disposition_keyed E _ _ _ Hd).
  - intros j r' [a b] _. exact I.
Qed.
Lemma part_keyed : forall E i r, env_ok E -> raw_entity E i = Ok r -> exists hs b, part_text E i hs b /\ Forall keyed_header hs /\ part_of hs b r.
Proof.
  intros E i r HE H. unfold raw_entity, header_part in H.
  pose proof (post_many _ (overflow E) (entity_header_parser E) (part_header E) i (part_header_nonempty E) (fun j => sound_entity_header E j (ok_hash _ HE))) as P.
  destruct (many (entity_header_parser E) i) as [[r1 hs]|e|k] eqn:M; cbn [bind] in H; [|discriminate..]. apply (yields_many _ _ _ (entity_header_keyed E)) in M. cbn in P. destruct P as (c & -> & P).
  change header_acc0 with (acc_of_headers []) in H. rewrite set_headers_spec in H. cbn [app] in H.
  assert (X : exists c1 b, part_text E (c ++ r1) hs b /\ c ++ r1 = c1 ++ b /\ match r1 with [] => Ok (0, acc_of_headers hs) | _ :: _ => let* (j, _) := tag CRLF "TAG ERROR: A MIME entity header part must be followed by a CRLF sequence." r1 in Ok (length j, acc_of_headers hs) end = Ok (length b, acc_of_headers hs) \/
    exists e, match r1 with [] => Ok (0, acc_of_headers hs) | _ :: _ => let* (j, _) := tag CRLF "TAG ERROR: A MIME entity header part must be followed by a CRLF sequence." r1 in Ok (length j, acc_of_headers hs) end = Err e).
  { destruct r1 as [|x r1].
    - exists c, []. left. repeat split; auto. exists c, []. auto.
    - destruct (tag_inv CRLF "TAG ERROR: A MIME entity header part must be followed by a CRLF sequence." (x :: r1)) as [(r' & -> & ->)|(_ & ->)]; cbn [bind].
      + exists (c ++ CRLF), r'. left. repeat split; auto; [|now rewrite <- app_assoc]. exists c, (CRLF ++ r'). auto.
      + exists [], []. right. eauto. }
  destruct X as (c1 & b & [(T & Hi & X)|[e X]]); rewrite X in H; cbn [bind] in H; [|discriminate]. clear X. rewrite Hi in *. unfold usize_sub in H. rewrite app_length in H.
  destruct (Nat.ltb_spec (length c1 + length b) (length b)); [discriminate|]. cbn [bind] in H.
  replace (length c1 + length b - length b) with (length c1) in H by lia. rewrite index_from_app in H. cbn [bind] in H.
  cbn [acc_of_headers h_encoding h_type h_description h_id h_disposition h_additional] in H.
  change (match last_some of_type hs with Some x => x | None => default_content_type end) with (type_of (last_some of_type hs)) in H.
  change (match last_some of_encoding hs with Some e => e | None => SevenBit end) with (encoding_of (last_some of_encoding hs)) in H.
  destruct (type_of (last_some of_type hs)) as [[t s] p] eqn:TY.
  pose proof (decode_value_spec E b (encoding_of (last_some of_encoding hs))) as D.
  destruct (decode_value E b (encoding_of (last_some of_encoding hs))) as [v|e|k]; cbn [bind] in H; [|discriminate..]. injection H as <-.
  exists hs, b. split; [exact T|]. split; [exact M|]. constructor; cbn; auto.
Qed.
Lemma header_small_part : forall k E, 1 <= k -> env_ok E -> f_mime E = true -> expands k E -> forall c h, part_header E c h -> keyed_header h -> small k c (header_texts h) (header_strings h).
Proof.
  intros k E Hk HE HM HX c h H HK. destruct H as [c e H|c t s p H|c i H|c d H|c d H|c n v H]; cbn [header_texts header_strings keyed_header] in *.
  - eapply small_nil; eauto.
  - eapply header_small; [exact Hk|exact H|]. intros c' H'. now apply (content_type_small k Hk E HX).
  - eapply header_small; [exact Hk|exact H|]. intros c' H'. eapply id_small; [exact Hk|exact H'].
  - eapply text_small; [exact Hk|exact E|exact H|]. exact (mime_text_len k Hk E HX).
  - eapply header_small; [exact Hk|exact H|]. intros c' H'. now apply (disposition_small k Hk E HX).
  - apply (unknown_small k Hk E (fun _ => HX) (ok_unrecognized _ HE)). exact H.
Qed.
Theorem part_size : forall k E i r, 3 <= k -> env_ok E -> f_mime E = true -> expands k E -> raw_entity E i = Ok r ->
  volume (part_contents r) <= k * length i + 20 /\ length (part_contents r) <= length i + 4.
Proof.
  intros k E i r Hk HE HM HX H. destruct (part_keyed E i r HE H) as (hs & b & (c & c' & -> & M & R) & K & O). clear H.
  assert (B : total (header_mass len) hs <= k * length c /\ total (header_mass one) hs <= length c).
  { clear R O. induction M as [|c h cs hs Hh _ IH]; [cbn; lia|]. inversion K as [|x y K1 K2]; subst. destruct (IH K2) as [I1 I2]. destruct (header_small_part k E ltac:(lia) HE HM HX _ _ Hh K1) as [S1 S2].
    assert (X1 : header_mass len h = volume (header_texts h) + volume (header_strings h)) by reflexivity. assert (X2 : header_mass one h = length (header_texts h) + length (header_strings h)) by (unfold header_mass; now rewrite !mass_one).
    rewrite !total_cons, X1, X2, app_length. split; nia. }
  destruct B as [B1 B2]. pose proof (part_mass len hs b r O) as P1. pose proof (part_mass one hs b r O) as P2. rewrite mass_one in P2. rewrite mass_len in P1.
  change (len (bs "plain") + len (bs "charset") + len (bs "us-ascii")) with 20 in P1. change (one (bs "plain") + one (bs "charset") + one (bs "us-ascii")) with 3 in P2.
  pose proof (transfer_len _ _ _ (of_part_value _ _ _ O)) as V. assert (L : length b <= length c') by (destruct R as [[-> ->]| ->]; rewrite ?app_length; cbn; lia).
  unfold part_contents. rewrite app_assoc, volume_app, volume_one, (app_length (entity_texts r ++ entity_strings r)), (app_length c). cbn [length]. split; nia.
Qed.
Lemma cut_len : forall b t ps, cut_text b t ps -> volume ps + 4 * length ps + 4 <= length t.
Proof.
  intros b t ps H. unfold volume. induction H as [p epi|t ps _ IH|p t ps _ IH]; cbn [map list_sum fold_right length]; rewrite !app_length; unfold closing_delimiter, delimiter, dash_boundary; rewrite !app_length; unfold list_sum in *; cbn; lia.
Qed.
Theorem parts_size : forall k E r s es, 3 <= k -> env_ok E -> f_mime E = true -> expands k E -> entity E r = Ok (EMultipart s es) ->
  volume (concat (map part_contents es)) <= k * length (e_value r) + 20 * length es /\ length (concat (map part_contents es)) <= length (e_value r) /\ 4 * length es <= length (e_value r).
Proof.
  intros k E r s es Hk HE HM HX H.
  assert (X : exists ps, volume ps + 4 * length ps <= length (e_value r) /\ raw_entities E ps = Ok es).
  { unfold entity in H. destruct (e_mime_type r); try discriminate.
    { destruct (map_get (e_parameters r) (bs "charset")); [|discriminate]. destruct (find_charset _); [|discriminate]. destruct (decode_charset _ _ _); discriminate. }
    destruct (parse_multipart E (e_value r) (e_parameters r)) as [es'|e|c] eqn:P; cbn [bind] in H; [|discriminate..]. injection H as _ <-. unfold parse_multipart in P.
    destruct (map_get (e_parameters r) (bs "boundary")) as [b|]; cbn [ok_or bind] in P; [|discriminate]. pose proof (post_many _ (overflow E) (before_boundary b) (split_text b) (e_value r) (split_nonempty b) (post_before_boundary _ b)) as Q.
    destruct (many (before_boundary b) (e_value r)) as [[r1 l]|e|c]; cbn [bind] in P; [|discriminate..]. cbn in Q. destruct Q as (c & V & Q). rewrite V.
    destruct (MultipartProofs.before_closing_spec b r1) as [(p & epi & -> & _ & Z)|(_ & e & Z)]; rewrite Z in P; cbn [bind] in P; [|discriminate].
    assert (HC : cut_text b (c ++ p ++ closing_delimiter b ++ epi) (l ++ [p])) by (eapply cut_many; eauto; constructor). apply cut_len in HC.
    destruct (l ++ [p]) as [|q ps] eqn:LP; [destruct l; discriminate|].
    match type of P with context [vec_remove ?x 0] => change x with (l ++ [p]) in P end. rewrite (vec_remove_0 _ _ _ _ LP) in P. cbn [bind] in P. exists ps. split; [|exact P]. unfold volume in *. cbn [map list_sum fold_right length] in HC. unfold list_sum in *. lia. }
  destruct X as (ps & V & R). assert (Y : volume (concat (map part_contents es)) <= k * volume ps + 20 * length es /\ length (concat (map part_contents es)) <= volume ps + 4 * length ps /\ length es = length ps).
  { clear H V. revert es R. induction ps as [|p ps IH]; intros es R; cbn [raw_entities] in R; [injection R as <-; cbn; lia|]. destruct (raw_entity E p) as [x|e|c] eqn:X; cbn [bind] in R; [|discriminate..].
    destruct (raw_entities E ps) as [xs|e|c]; cbn [bind] in R; [|discriminate..]. injection R as <-. destruct (IH _ eq_refl) as (I1 & I2 & I3). destruct (part_size k E p x Hk HE HM HX X) as [P1 P2].
    cbn [map concat length]. rewrite volume_app, app_length. unfold volume at 3 4. cbn [map list_sum fold_right]. fold (volume ps). unfold volume in *. unfold list_sum in *. split; [nia|split; nia]. }
  destruct Y as (Y1 & Y2 & Y3). split; [nia|split; lia].
Qed.
Theorem text_size : forall k E r s v, 1 <= k -> env_ok E -> expands k E -> entity E r = Ok (EText s v) -> s = e_subtype r /\ length v <= k * length (e_value r).
Proof.
  intros k E r s v Hk HE HX H. pose proof (sound_entity E r (ok_hash _ HE)) as S. rewrite H in S. cbn in S. inversion S; subst. split; [reflexivity|]. eapply charset_len; eauto.
Qed.
Theorem text_mail_size : forall E D e, env_ok E -> f_mime E = false -> parse E D = Ok e ->
  (volume (contents e) <= length D + volume (sender_contents e) /\ volume (sender_contents e) <= length D) /\
  (length (contents e) <= length D + length (sender_contents e) /\ length (sender_contents e) <= length D).
Proof. intros E D e HE HM H. destruct (email_size 1 E D e) as [X Y]; auto; [rewrite HM; discriminate|]. unfold extra in *. rewrite HM in *. split; split; lia. Qed.
Theorem mime_mail_size : forall k E D e, 3 <= k -> env_ok E -> f_mime E = true -> expands k E -> parse E D = Ok e ->
  (volume (contents e) <= k * length D + 20 + volume (sender_contents e) /\ volume (sender_contents e) <= k * length D) /\
  (length (contents e) <= length D + 4 + length (sender_contents e) /\ length (sender_contents e) <= length D).
Proof. intros k E D e Hk HE HM HX H. destruct (email_size k E D e) as [X Y]; auto; [lia|]. unfold extra in *. rewrite HM in *. split; split; lia. Qed.

(* Every byte that the counting parser of Timed.v passes is counted. *)
From Coq Require Import Lia ZifyBool ZifyNat ZifyN.
From Verif Require Import Base Utf8 CharSets Combinators Whitespace QuotedString Common Time Address MimeFields Fields Message Entity Email Envs Rfc5322 TagNoCase Post SoundBase SoundTime Timed TimedErase TimedFacts TimedMail.
Local Open Scope nat_scope.

Definition pays {A} (i : bytes) (x : timed (bytes * A)) : Prop := match x with (Ok (r, _), n) => length i <= length r + n | _ => True end.
Definition payer {A} (p : timed_parser A) : Prop := forall i, pays i (p i).
Lemma pays_bind : forall A B i (x : timed (bytes * A)) (k : bytes * A -> timed (bytes * B)), pays i x -> (forall r a, pays r (k (r, a))) -> pays i (t_bind x k).
Proof. intros A B i [[[r a]|e|c] n] k H K; cbn in *; auto. specialize (K r a). destruct (k (r, a)) as [[[r' b]|e|c] m]; cbn in *; auto. lia. Qed.
Lemma pays_attempt : forall A B i (x : timed (bytes * A)) (k : bytes * A -> timed (bytes * B)) f, pays i x -> (forall r a, pays r (k (r, a))) -> pays i f -> pays i (t_attempt x k f).
Proof.
  intros A B i [[[r a]|e|c] n] k f H K F; cbn in *; auto; [specialize (K r a); destruct (k (r, a)) as [[[r' b]|e|c] m]|destruct f as [[[r' b]|e'|c] m]]; cbn in *; auto; lia.
Qed.
(* without a rest *)
Lemma pays_step : forall A B i n (x : res A) (k : A -> timed (bytes * B)), (forall a, pays i (k a)) -> pays i (let+ a := t_step n x in k a).
Proof. intros A B i n [a|e|c] k K; cbn; auto. specialize (K a). destruct (k a) as [[[r' b]|e|c] m]; cbn in *; auto. lia. Qed.
Lemma pays_ok : forall A i (a : A), pays i (t_ok (i, a)).
Proof. intros. cbn. lia. Qed.
Lemma pays_err : forall A i e, pays i (t_err e : timed (bytes * A)).
Proof. intros. exact I. Qed.
Lemma pays_known : forall A i r n (a : A), length i <= length r + n -> pays i (t_step n (Ok (r, a))).
Proof. intros. assumption. Qed.
Lemma pays_map_err : forall A i (x : timed (bytes * A)) e, pays i x -> pays i (t_map_err x e).
Proof. intros A i [[[r a]|e|c] n] e' H; exact H. Qed.
Lemma pays_concat : forall A i a b (k : bytes -> timed (bytes * A)), (forall s, pays i (k s)) -> pays i (let+ s := t_concat a b in k s).
Proof. intros. unfold t_concat. now apply pays_step. Qed.
(* a comparison, and the byte after it *)
Lemma pays_next : forall A i c (k : bytes -> timed (bytes * A)) y, (forall r, pays r (k r)) -> pays i y -> pays i (let+ b := t_starts_with i [c] in if b : bool then let+ j := t_step 0 (index_from i 1) in k j else y).
Proof.
  intros A i c k y K Y. unfold t_starts_with, t_step. cbn [t_bind fst snd length]. destruct (starts_with i [c]) eqn:Q; cbn [t_bind fst snd]; [|destruct y as [[[r a]|e|x] n]; cbn in *; auto; lia].
  apply starts_app in Q. destruct i as [|d i]; [discriminate|]. cbn [index_from t_bind]. change (skipn 1 (d :: i)) with i. cbn. specialize (K i). destruct (k i) as [[[r a]|e|x] n]; cbn in *; auto. lia.
Qed.
Lemma pays_prefixed : forall A (p : timed_parser A) c, payer p -> payer (t_prefixed p [c]).
Proof.
  intros A p c H i. unfold t_prefixed, t_starts_with, t_step. cbn [t_bind fst snd length]. destruct (starts_with i [c]) eqn:Q; cbn [t_bind fst snd]; [|exact I].
  apply starts_app in Q. destruct i as [|d i]; [discriminate|]. unfold unchecked_from. cbn [length Nat.ltb Nat.leb t_bind]. change (skipn 1 (d :: i)) with i. cbn. specialize (H i). destruct (p i) as [[[r a]|e|x] n]; cbn in *; auto. lia.
Qed.
Lemma pays_tag : forall e m, payer (t_tag e m).
Proof. intros e m i. pose proof (s_tag e m i) as H. destruct (t_tag e m i) as [[[r a]|x|c] n]; cbn in *; auto. destruct H as [-> ->]. rewrite app_length. lia. Qed.
Lemma span_pays : forall f i, length i <= length (snd (span f i)) + S (length (fst (span f i))).
Proof. intros f i. pose proof (span_length f i). lia. Qed.
Lemma pays_take : forall f, payer (t_take_while f).
Proof. intros f i. unfold t_take_while, take_while, t_step. pose proof (span_pays f i) as H. destruct (span f i) as [a r]. cbn [fst snd] in *. destruct (str_unchecked a); cbn; auto. Qed.
Lemma pays_take1 : forall f, payer (t_take_while1 f).
Proof.
  intros f i. unfold t_take_while1, take_while1, t_step. pose proof (span_pays f i) as H. destruct i as [|c i]; [exact I|]. destruct (f c); cbn [negb]; [|exact I]. destruct (span f (c :: i)) as [a r]. cbn [fst snd] in *. destruct (str_unchecked a); cbn; auto.
Qed.
Lemma pays_leaf : forall A n i (x : res (bytes * A)) P, Post.post (fun _ => True) x i P -> (forall c a, P c a -> length c <= n) -> pays i (t_step n x).
Proof. intros A n i [[r a]|e|c] P H L; cbn in *; auto. destruct H as (c & -> & H). apply L in H. rewrite app_length. lia. Qed.
Lemma pays_name : forall E e1 e2 m, nocase_pair e1 e2 = true -> payer (t_tag_no_case E e1 e2 m).
Proof.
  intros E e1 e2 m H i. unfold t_tag_no_case, t_step. rewrite tag_no_case_spec by exact H. destruct (starts_nocase i e1) eqn:Q; [|destruct (_ <? _); exact I]. cbn. rewrite skipn_length. lia.
Qed.
Lemma pays_optional : forall A (p : timed_parser A), payer p -> payer (t_optional p).
Proof. intros A p H i. unfold t_optional. apply pays_attempt; [apply H|intros; apply pays_ok|apply pays_ok]. Qed.
Lemma pays_match : forall A (ps : list (timed_parser A)), Forall payer ps -> payer (t_match_parsers ps).
Proof. intros A ps H i. induction H as [|p ps H _ IH]; cbn [t_match_parsers]; [exact I|]. apply pays_attempt; [apply H|intros; apply pays_ok|exact IH]. Qed.
Lemma pays_many : forall A (p : timed_parser A), payer p -> payer (t_many p).
Proof.
  intros A p H i. unfold t_many. generalize (S (length i)). intros n. revert i. induction n as [|n IH]; intros i; [exact I|]. cbn [t_many_fuel]. apply pays_step. intros _. apply pays_attempt; [apply H| |apply pays_ok]. intros r a. apply pays_bind; [apply IH|]. intros. apply pays_ok.
Qed.
Lemma pays_pmap : forall A B (f : A -> B) p, payer p -> payer (t_pmap f p).
Proof. intros A B f p H i. unfold t_pmap. apply pays_bind; [apply H|]. intros. apply pays_ok. Qed.
Lemma pays_quoted_pair : payer t_quoted_pair.
Proof.
  intros i. pose proof (s_quoted_pair i) as H. destruct (t_quoted_pair i) as [[[r a]|e|c] n]; cbn in *; auto. destruct H as (H1 & H2 & H3 & -> & _). unfold ahead, bytes, byte in *. lia.
Qed.
Lemma pays_if : forall A (b : bool) i (x y : timed (bytes * A)), pays i x -> pays i y -> pays i (if b then x else y).
Proof. intros A [] *; auto. Qed.
Lemma pays_many1 : forall A (p : timed_parser A), payer p -> payer (t_many1 p).
Proof. intros A p H i. unfold t_many1. apply pays_bind; [apply H|]. intros r a. apply pays_bind; [apply (pays_many _ p H)|]. intros. apply pays_ok. Qed.
Lemma pays_ignore : forall A (p : timed_parser A), payer p -> payer (t_ignore_many p).
Proof. intros A p H i. unfold t_ignore_many. apply pays_bind; [apply (pays_many _ p H)|]. intros. apply pays_ok. Qed.
Lemma pays_last : forall A i r n (a : A), i = r -> pays i (t_step n (Ok (r, a))).
Proof. intros A i r n a ->. cbn. lia. Qed.
Lemma pays_collect : forall (p : timed_parser bytes), payer p -> payer (t_collect_many p).
Proof. intros p H i. unfold t_collect_many. apply pays_bind; [apply (pays_many _ p H)|]. intros. now apply pays_last. Qed.
Lemma pays_pair : forall A B (p : timed_parser A) (q : timed_parser B), payer p -> payer q -> payer (t_pair_p p q).
Proof. intros A B p q Hp Hq i. unfold t_pair_p. apply pays_bind; [apply Hp|]. intros. apply pays_bind; [apply Hq|]. intros. apply pays_ok. Qed.
Lemma pays_collect_pair : forall (p q : timed_parser bytes), payer p -> payer q -> payer (t_collect_pair p q).
Proof. intros p q Hp Hq i. unfold t_collect_pair. apply pays_bind; [apply Hp|]. intros. apply pays_bind; [apply Hq|]. intros. apply pays_concat. intros. apply pays_ok. Qed.
Create HintDb paid discriminated.
#[global] Hint Resolve pays_tag pays_take pays_take1 pays_quoted_pair : paid.
Ltac pay :=
  lazymatch goal with
  | |- pays _ (t_ok _) => apply pays_ok
  | |- pays _ (t_err _) => apply pays_err
  | |- pays _ (t_bind (t_starts_with _ _) _) => apply pays_next; [let r := fresh "r" in intros r; pay|pay]
  | |- pays _ (t_bind (t_concat _ _) _) => apply pays_concat; intros; pay
  | |- pays _ (t_bind (t_step _ _) _) => apply pays_step; intros; pay
  | |- pays _ (t_bind _ _) => apply pays_bind; [pay|let r := fresh "r" in let a := fresh "a" in intros r a; pairs; cbn beta iota; pay]
  | |- pays _ (t_attempt _ _ _) => apply pays_attempt; [pay|let r := fresh "r" in let a := fresh "a" in intros r a; pairs; cbn beta iota; pay|pay]
  | |- pays _ (t_map_err _ _) => apply pays_map_err; pay
  | |- pays _ (if _ then _ else _) => apply pays_if; pay
  | |- pays _ (match ?o with Some _ => _ | None => _ end) => destruct o; pairs; pay
  | |- pays _ (t_step _ (Ok _)) => apply pays_last; reflexivity
  | |- pays ?i (?p ?i) => let X := fresh in assert (X : payer p); [payc|exact (X i)]
  end
with payc :=
  lazymatch goal with
  | |- payer (t_optional _) => apply pays_optional; payc
  | |- payer (t_match_parsers _) => apply pays_match; payl
  | |- payer (t_many _) => apply pays_many; payc
  | |- payer (t_many1 _) => apply pays_many1; payc
  | |- payer (t_ignore_many _) => apply pays_ignore; payc
  | |- payer (t_collect_many _) => apply pays_collect; payc
  | |- payer (t_pmap _ _) => apply pays_pmap; payc
  | |- payer (t_pair_p _ _) => apply pays_pair; payc
  | |- payer (t_collect_pair _ _) => apply pays_collect_pair; payc
  | |- payer (t_prefixed _ _) => apply pays_prefixed; payc
  | |- payer (fun _ => _) => let i := fresh "i" in intros i; pay
  | |- payer _ => solve [auto 2 with paid nocore]
  end
with payl := first [apply Forall_nil|apply Forall_cons; [payc|payl]].
Lemma p_fws : payer t_fws.
Proof. intros i. unfold t_fws. pay. Qed.
#[global] Hint Resolve p_fws : paid.
Lemma p_comment : payer t_comment.
Proof.
  intros i. unfold t_comment. generalize (S (length i)). intros n. revert i. induction n as [|n IH]; intros i; [exact I|]. cbn [t_comment_d]. assert (payer (t_comment_d n)) by exact IH.
  apply pays_bind; [pay|]. intros r _. cbn beta iota. apply pays_bind; [|intros; pairs; pay]. assert (X : payer (t_ignore_many (t_pair_p (t_optional t_fws) (t_match_parsers [t_take_while1 is_ctext; t_quoted_pair; t_comment_d n])))); [|exact (X r)].
  apply pays_ignore, pays_pair; [payc|]. apply pays_match. repeat apply Forall_cons; try apply Forall_nil; try payc.
Qed.
#[global] Hint Resolve p_comment : paid.
Lemma p_fws_comment : payer t_fws_comment.
Proof. intros i. unfold t_fws_comment. pay. Qed.
#[global] Hint Resolve p_fws_comment : paid.
Lemma p_real_cfws : payer t_real_cfws.
Proof. intros i. unfold t_real_cfws. cbv zeta. pay. Qed.
#[global] Hint Resolve p_real_cfws : paid.
Lemma p_cfws : payer t_cfws.
Proof. unfold t_cfws. payc. Qed.
#[global] Hint Resolve p_cfws : paid.
Lemma pays_skip : forall A i (k : bytes -> timed (bytes * A)), (forall r, pays r (k r)) -> pays i (let+ r := t_skip_cfws i in k r).
Proof.
  intros A i k K. unfold t_skip_cfws. pose proof (p_cfws i) as H. destruct (t_cfws i) as [[[r a]|e|c] n]; cbn in *; auto; [specialize (K r); destruct (k r) as [[[r' b]|e|c] m]|specialize (K i); destruct (k i) as [[[r' b]|e'|c] m]]; cbn in *; auto; lia.
Qed.
Ltac pay ::=
  lazymatch goal with
  | |- pays _ (t_ok _) => apply pays_ok
  | |- pays _ (t_err _) => apply pays_err
  | |- pays _ (t_bind (t_skip_cfws _) _) => apply pays_skip; let r := fresh "r" in intros r; pay
  | |- pays _ (t_bind (t_starts_with _ _) _) => apply pays_next; [let r := fresh "r" in intros r; pay|pay]
  | |- pays _ (t_bind (t_concat _ _) _) => apply pays_concat; intros; pay
  | |- pays _ (t_bind (t_step _ _) _) => apply pays_step; intros; pay
  | |- pays _ (t_bind _ _) => apply pays_bind; [pay|let r := fresh "r" in let a := fresh "a" in intros r a; pairs; cbn beta iota; pay]
  | |- pays _ (t_attempt _ _ _) => apply pays_attempt; [pay|let r := fresh "r" in let a := fresh "a" in intros r a; pairs; cbn beta iota; pay|pay]
  | |- pays _ (t_map_err _ _) => apply pays_map_err; pay
  | |- pays _ (if _ then _ else _) => apply pays_if; pay
  | |- pays _ (match ?o with Some _ => _ | None => _ end) => destruct o; pairs; pay
  | |- pays _ (t_step _ (Ok _)) => apply pays_last; reflexivity
  | |- pays ?i (?p ?i) => let X := fresh in assert (X : payer p); [payc|exact (X i)]
  end.
Ltac pp := let i := fresh "i" in intros i; match goal with |- pays _ (?f _) => unfold f | |- pays _ (?f _ _) => unfold f end; pay.
Lemma p_qs_step : payer t_quoted_string_step. Proof. pp. Qed.
#[global] Hint Resolve p_qs_step : paid.
Lemma p_qs : payer t_quoted_string. Proof. pp. Qed.
#[global] Hint Resolve p_qs : paid.
Lemma p_atom : payer t_atom. Proof. pp. Qed.
#[global] Hint Resolve p_atom : paid.
Lemma p_dot_step : forall E, payer (t_dot_atom_step E). Proof. intros E. change (bs ".") with [46%N]. pp. Qed.
#[global] Hint Resolve p_dot_step : paid.
Lemma p_dot_text : forall E, payer (t_dot_atom_text E). Proof. intros E. pp. Qed.
#[global] Hint Resolve p_dot_text : paid.
Lemma p_dot_atom : forall E, payer (t_dot_atom E). Proof. intros E. pp. Qed.
#[global] Hint Resolve p_dot_atom : paid.
Lemma p_word : payer t_word. Proof. unfold t_word. payc. Qed.
#[global] Hint Resolve p_word : paid.
Lemma p_phrase : payer t_phrase. Proof. unfold t_phrase. payc. Qed.
#[global] Hint Resolve p_phrase : paid.
Lemma p_text_step : payer t_unstructured_step. Proof. unfold t_unstructured_step. intros i. match goal with |- pays _ (?p _) => let X := fresh in assert (X : payer p); [payc|exact (X i)] end. Qed.
#[global] Hint Resolve p_text_step : paid.
Lemma p_text : payer t_unstructured. Proof. pp. Qed.
#[global] Hint Resolve p_text : paid.
Lemma p_no_fold : payer t_no_fold_litteral. Proof. pp. Qed.
#[global] Hint Resolve p_no_fold : paid.
Lemma p_message_id : forall E, payer (t_message_id E). Proof. intros E. pp. Qed.
#[global] Hint Resolve p_message_id : paid.
Lemma p_local : forall E, payer (t_local_part E). Proof. intros E. unfold t_local_part. payc. Qed.
#[global] Hint Resolve p_local : paid.
Lemma p_domain_step : payer t_domain_literal_step. Proof. pp. Qed.
#[global] Hint Resolve p_domain_step : paid.
Lemma p_domain_literal : payer t_domain_literal. Proof. pp. Qed.
#[global] Hint Resolve p_domain_literal : paid.
Lemma p_domain : forall E, payer (t_domain E). Proof. intros E. unfold t_domain. payc. Qed.
#[global] Hint Resolve p_domain : paid.
Lemma p_addr_spec : forall E, payer (t_addr_spec E). Proof. intros E. pp. Qed.
#[global] Hint Resolve p_addr_spec : paid.
Lemma p_angle : forall E, payer (t_angle_addr E). Proof. intros E. pp. Qed.
#[global] Hint Resolve p_angle : paid.
Lemma p_name_addr : forall E, payer (t_name_addr E). Proof. intros E. pp. Qed.
#[global] Hint Resolve p_name_addr : paid.
Lemma p_mailbox : forall E, payer (t_mailbox E). Proof. intros E. unfold t_mailbox. payc. Qed.
#[global] Hint Resolve p_mailbox : paid.
Lemma p_mailbox_list : forall E, payer (t_mailbox_list E). Proof. intros E. pp. Qed.
#[global] Hint Resolve p_mailbox_list : paid.
Lemma p_group : forall E, payer (t_group E). Proof. intros E. pp. Qed.
#[global] Hint Resolve p_group : paid.
Lemma p_address : forall E, payer (t_address E). Proof. intros E. pp. Qed.
#[global] Hint Resolve p_address : paid.
Lemma p_address_list : forall E, payer (t_address_list E). Proof. intros E. pp. Qed.
#[global] Hint Resolve p_address_list : paid.
Lemma p_day_name : payer t_day_name.
Proof. intros i. unfold t_day_name. eapply pays_leaf; [apply sound_day_name|]. cbn beta. intros c a [H _]. lia. Qed.
Lemma p_month : payer t_month.
Proof. intros i. unfold t_month. eapply pays_leaf; [apply sound_month|]. cbn beta. intros c a [H _]. lia. Qed.
Lemma p_two_digits : forall E, payer (t_two_digits E).
Proof. intros E i. unfold t_two_digits. eapply pays_leaf; [apply sound_two_digits|]. cbn beta. intros c a [[H _] _]. lia. Qed.
Lemma p_digit : payer t_digit.
Proof. intros [|c i]; unfold t_digit, digit; cbn; auto. destruct (is_digit c); cbn; auto. lia. Qed.
Lemma p_time_of_day : forall E, payer (t_time_of_day E).
Proof.
  intros E i. unfold t_time_of_day. eapply pays_leaf; [apply sound_time_of_day|]. cbn beta. intros c a [H _]. destruct H as [c1 h c2 m [H1 _] [H2 _]|c1 h c2 m c3 s [H1 _] [H2 _] [H3 _]]; rewrite !app_length; change (length (bs ":")) with 1; unfold bytes, byte in *; lia.
Qed.
#[global] Hint Resolve p_day_name p_month p_two_digits p_digit p_time_of_day : paid.
Lemma p_day_of_week : payer t_day_of_week. Proof. pp. Qed.
#[global] Hint Resolve p_day_of_week : paid.
Lemma p_year : payer t_year. Proof. pp. Qed.
Lemma p_day : forall E, payer (t_day E). Proof. intros E. pp. Qed.
Lemma pays_sign : forall A c r b (k : bool -> bytes -> timed (bytes * A)), pays r (k b r) -> pays (c :: r) (let+ s := t_step 2 (Ok b) in let+ j := t_step 0 (index_from (c :: r) 1) in k s j).
Proof. intros A c r b k H. cbn [index_from t_bind t_step]. change (skipn 1 (c :: r)) with r. cbn. destruct (k b r) as [[[r' x]|e|y] n]; cbn in *; auto. lia. Qed.
Lemma p_zone : forall E, payer (t_zone E).
Proof.
  intros E i. unfold t_zone. apply pays_bind; [pay|]. intros [|c r] a; cbn beta iota; [exact I|].
  assert (Y : forall b, pays r (let+ (i0, h) := t_two_digits E r in let+ (i1, m) := t_two_digits E i0 in if (59 <? m)%N then t_err (Unknown "zone minute_offset out of range") else t_ok (i1, {| z_sign := b; z_hour_offset := h; z_minute_offset := m |}))) by (intros b; pay).
  set (k := fun (b : bool) (j : bytes) => let+ (i0, h) := t_two_digits E j in let+ (i1, m) := t_two_digits E i0 in if (59 <? m)%N then t_err (Unknown "zone minute_offset out of range") else t_ok (i1, {| z_sign := b; z_hour_offset := h; z_minute_offset := m |})).
  destruct (c =? 43)%N; [exact (pays_sign _ c r true k (Y true))|]. destruct (c =? 45)%N; [exact (pays_sign _ c r false k (Y false))|exact I].
Qed.
#[global] Hint Resolve p_year p_day p_zone : paid.
Lemma p_date : forall E, payer (t_date E). Proof. intros E. pp. Qed.
Lemma p_time : forall E, payer (t_time E). Proof. intros E. pp. Qed.
#[global] Hint Resolve p_date p_time : paid.
Lemma p_date_time : forall E, payer (t_date_time E). Proof. intros E. pp. Qed.
#[global] Hint Resolve p_date_time : paid.
Lemma p_header : forall A E e1 e2 m (v : timed_parser A) m', nocase_pair (bs e1) (bs e2) = true -> payer v -> payer (t_header E e1 e2 m v m').
Proof. intros A E e1 e2 m v m' H V i. unfold t_header. apply pays_bind; [apply pays_name; exact H|]. intros r a. apply pays_bind; [apply V|]. intros. apply pays_bind; [apply pays_tag|]. intros. apply pays_ok. Qed.
Ltac ph := match goal with |- payer (?f _) => unfold f end; apply p_header; [reflexivity|payc].
Lemma p_h_date : forall E, payer (t_field_date E). Proof. intros. ph. Qed.
Lemma p_h_from : forall E, payer (t_field_from E). Proof. intros. ph. Qed.
Lemma p_h_sender : forall E, payer (t_field_sender E). Proof. intros. ph. Qed.
Lemma p_h_reply_to : forall E, payer (t_field_reply_to E). Proof. intros. ph. Qed.
Lemma p_h_to : forall E, payer (t_field_to E). Proof. intros. ph. Qed.
Lemma p_h_cc : forall E, payer (t_field_cc E). Proof. intros. ph. Qed.
Lemma p_bcc_value : forall E, payer (t_bcc_value E).
Proof. intros E i. unfold t_bcc_value. apply pays_attempt; [pay|intros; apply pays_ok|]. pay. Qed.
#[global] Hint Resolve p_bcc_value : paid.
Lemma p_h_bcc : forall E, payer (t_field_bcc E). Proof. intros. ph. Qed.
Lemma p_h_message_id : forall E, payer (t_field_message_id E). Proof. intros. ph. Qed.
Lemma p_h_in_reply_to : forall E, payer (t_field_in_reply_to E). Proof. intros. ph. Qed.
Lemma p_h_references : forall E, payer (t_field_references E). Proof. intros. ph. Qed.
Lemma p_h_subject : forall E, payer (t_field_subject E). Proof. intros. ph. Qed.
Lemma p_h_comments : forall E, payer (t_field_comments E). Proof. intros. ph. Qed.
Lemma p_keywords_value : payer t_keywords_value. Proof. pp. Qed.
#[global] Hint Resolve p_keywords_value : paid.
Lemma p_h_keywords : forall E, payer (t_field_keywords E). Proof. intros. ph. Qed.
#[global] Hint Resolve p_h_date p_h_from p_h_sender p_h_reply_to p_h_to p_h_cc p_h_bcc p_h_message_id p_h_in_reply_to p_h_references p_h_subject p_h_comments p_h_keywords : paid.
Lemma p_resent : forall A E m (p : timed_parser A), payer p -> payer (t_resent E m p).
Proof. intros A E m p H i. unfold t_resent. apply pays_bind; [apply pays_name; reflexivity|]. intros. apply H. Qed.
Lemma p_resent_field : forall E, payer (t_resent_field E).
Proof. intros E. unfold t_resent_field. apply pays_match. repeat (apply Forall_cons; [apply pays_pmap, p_resent; payc|]). apply Forall_nil. Qed.
Lemma p_empty_path : payer t_empty_path. Proof. pp. Qed.
#[global] Hint Resolve p_resent_field p_empty_path : paid.
Lemma p_return_path_value : forall E, payer (t_return_path_value E). Proof. intros E. unfold t_return_path_value. payc. Qed.
#[global] Hint Resolve p_return_path_value : paid.
Lemma p_return_path : forall E, payer (t_return_path E). Proof. intros. ph. Qed.
Lemma p_received_token : forall E, payer (t_received_token_parser E).
Proof.
  intros E i. unfold t_received_token_parser. pose proof (p_word i) as HW. pose proof (p_domain E i) as HD. destruct (t_word i) as [[[r w]|e|c] n].
  - cbn [t_attempt]. destruct (t_domain E i) as [[[r' d]|e|c] m]; cbn [t_attempt]; [destruct (_ <? _)| |]; cbn in *; auto; lia.
  - cbn [t_attempt].
    assert (X : pays i (t_attempt (t_angle_addr E i) (fun '(i, a) => t_ok (i, RAddr a)) (t_attempt (t_addr_spec E i) (fun '(i, a) => t_ok (i, RAddr a)) (t_attempt (t_domain E i) (fun '(i, d) => t_ok (i, RDomain d)) (t_err (Unknown "match error")))))) by pay.
    destruct (t_attempt (t_angle_addr E i) _ _) as [[[r' d]|e'|c] m]; cbn in *; auto; lia.
  - exact I.
Qed.
#[global] Hint Resolve p_return_path p_received_token : paid.
Lemma p_received_value : forall E, payer (t_received_value E). Proof. intros E. pp. Qed.
#[global] Hint Resolve p_received_value : paid.
Lemma p_received : forall E, payer (t_received E). Proof. intros. ph. Qed.
#[global] Hint Resolve p_received : paid.
Lemma p_trace : forall E, payer (t_trace E). Proof. intros E. pp. Qed.
#[global] Hint Resolve p_trace : paid.
Lemma p_trace_block : forall E, payer (t_trace_block E). Proof. intros E. pp. Qed.
Lemma p_unknown : payer t_unknown. Proof. pp. Qed.
#[global] Hint Resolve p_trace_block p_unknown : paid.
Lemma paid_cfg : forall A b (p : timed_parser A) l, payer p -> Forall payer l -> Forall payer (t_cfg b p ++ l).
Proof. intros A [] p l H L; cbn; auto. Qed.
Lemma p_any_field : forall E, payer (t_any_field E).
Proof. intros E. unfold t_any_field, t_field_parsers. apply pays_match. repeat (apply paid_cfg; [payc|]). apply Forall_cons; [payc|apply Forall_nil]. Qed.
#[global] Hint Resolve p_any_field : paid.
Lemma p_fields : forall E, payer (t_fields E). Proof. intros E. pp. Qed.
Lemma body_loop_pays : forall n i, fst (t_body_loop n i) = Ok tt -> length i <= snd (t_body_loop n i).
Proof.
  induction n as [|n IH]; intros i; [discriminate|]. cbn [t_body_loop]. unfold t_check_line, check_line, t_step. pose proof (line_loop_length 998 i) as L. destruct (line_loop 998 i) as [a r]. cbn [fst snd t_bind] in *.
  pose proof (s_tag CRLF "TAG ERROR: In a body, a line must end with a CRLF sequence." r) as T. unfold t_tag, t_step, spec in T. destruct (tag CRLF _ r) as [[r' []]|e|x]; cbn [t_bind fst snd].
  - destruct T as [-> _]. rewrite app_length in L. cbn [CRLF length] in L. specialize (IH r'). destruct (t_body_loop n r') as [[[]|e|c] m]; cbn [fst snd] in *; intros H; try discriminate. specialize (IH eq_refl). unfold bytes, byte in *. lia.
  - destruct r; cbn [fst snd] in *; intros H; [|discriminate]. unfold bytes, byte in *. cbn in L. lia.
  - discriminate.
Qed.
Lemma body_pays : forall i b, fst (t_body i) = Ok b -> length i <= snd (t_body i).
Proof.
  intros [|c i] b; [cbn; lia|]. unfold t_body. set (d := c :: i). pose proof (pays_tag CRLF "TAG ERROR: Headers must be followed by a CRLF sequence." d) as T. destruct (t_tag CRLF _ d) as [[[r []]|e|x] n]; cbn [t_bind fst]; [|discriminate|discriminate]. cbn in T.
  pose proof (body_loop_pays (S (length r)) r) as B. destruct (t_body_loop (S (length r)) r) as [[[]|e|x] m]; cbn [t_bind fst snd] in *; [|discriminate|discriminate]. specialize (B eq_refl). intros _.
  cbn. unfold bytes, byte in *. lia.
Qed.
(* an accepted mail is counted byte by byte *)
Theorem t_parse_pays : forall E d m, fst (t_parse E d) = Ok m -> length d <= snd (t_parse E d).
Proof.
  intros E d m. unfold t_parse, t_parse_message. pose proof (p_fields E d) as F. destruct (t_fields E d) as [[[r fs]|e|c] n]; cbn [t_bind fst]; [|discriminate|discriminate]. cbn in F.
  pose proof (body_pays r) as B. destruct (t_body r) as [[b|e|c] k]; cbn [t_bind fst snd] in *; [|discriminate|discriminate]. specialize (B b eq_refl). unfold t_ok at 1. cbn [t_bind fst snd]. intros _.
  cbn [fst snd t_ok]. match goal with |- _ <= _ + ?z => generalize z end. intros z. unfold bytes, byte in *. lia.
Qed.
(* the counting parser is the parser, and its work is linear *)
Theorem work_linear : exists K, forall E d, env_ok E -> f_mime E = false ->
  fst (t_parse E d) = parse E d /\ snd (t_parse E d) <= K * S (length d).
Proof.
  destruct t_parse_linear as [K H]. exists K. intros E d HE M. split; [|apply H; assumption]. apply t_parse_erases; [exact M|]. destruct (f_unrecognized_headers E) eqn:U; [|reflexivity]. pose proof (ok_unrecognized E HE U) as X. congruence.
Qed.
Theorem work_counts : forall E d m, env_ok E -> f_mime E = false -> parse E d = Ok m -> length d <= snd (t_parse E d).
Proof.
  intros E d m HE M H. destruct work_linear as [K W]. destruct (W E d HE M) as [W1 _]. apply (t_parse_pays E d m). rewrite W1. exact H.
Qed.

(* The work of the headers is linear in the text up to their end. *)
From Coq Require Import Lia ZifyBool ZifyNat ZifyN.
From Verif Require Import Base Utf8 CharSets Combinators Whitespace QuotedString Common Time Address MimeFields Fields Message Email Rfc5322 TagNoCase Post SoundBase SoundTime Timed TimedFacts TimedWords TimedAddr TimedBox TimedVals.
Local Open Scope nat_scope.

(* r is after the line that ends the header at i; when r looks like a further line of the header, nothing is read there *)
Definition lined (i r : bytes) : Prop := length r + 2 <= length i /\ (length i = length r + 2 + reach i \/ begins is_wsp r /\ ahead i r).
Definition head {A} (C : nat) (size : A -> nat) (p : timed_parser A) : Prop := forall i,
  spec (fun r a n => lined i r /\ size a <= 2 * length i /\ n <= C * S (reach i)) (fun n => n <= C * S (reach i)) (p i) /\ (begins is_wsp i -> nope (p i)).
Lemma head_weak : forall A C C' size (p : timed_parser A), head C size p -> C <= C' -> head C' size p.
Proof.
  intros A C C' size p H L i. destruct (H i) as [H1 H2]. split; [|exact H2]. assert (C * S (reach i) <= C' * S (reach i)) by (apply Nat.mul_le_mono_r; exact L).
  eapply spec_weak; [exact H1| |]; cbn beta; [intros r a n (X & Y & Z); split; [exact X|]; split; [exact Y|lia]|intros; lia].
Qed.
Lemma head_pmap : forall A B C size size' (f : A -> B) (p : timed_parser A), head C size p -> (forall a, size' (f a) <= size a) -> head C size' (t_pmap f p).
Proof.
  intros A B C size size' f p H L i. destruct (H i) as [H1 H2]. unfold t_pmap. split; [|intros X; apply nope_bind, H2, X].
  eapply spec_bind; [exact H1|auto|]. cbn beta. intros r a n (X & Y & Z). apply spec_ok. specialize (L a). split; [exact X|]. split; [lia|lia].
Qed.
(* the next line *)
Lemma lined_crlf : forall i j r, ahead i j -> j = CRLF ++ r -> lined i r.
Proof.
  intros i j r H ->. unfold lined. destruct (stops_or is_wsp r) as [S|S].
  - assert (R : reach (CRLF ++ r) = 0) by (apply reach_crlf_end; intros w t ->; exact S). unfold ahead in H. rewrite app_length in H. cbn [CRLF length] in H. split; [ah|left; ah].
  - pose proof S as (w & t & -> & W). pose proof (reach_crlf w t W) as R. unfold ahead in H. rewrite app_length in H. cbn [CRLF length] in *. split; [ah|right; split; [exact S|]]. unfold ahead. cbn [length]. ah.
Qed.
Lemma lined_ahead : forall i j r, ahead i j -> lined j r -> lined i r.
Proof. unfold lined. intros i j r H [H1 H2]. split; [ah|]. destruct H2 as [H2|[H2 H3]]; [left; ah|right; split; [exact H2|ah]]. Qed.
(* names *)
Definition name_ok (e : bytes) : bool := match e with a :: _ => negb (is_wsp (fold_case a)) && forallb (fun c => negb (c =? 13)%N) e | [] => false end.
Lemma s_name : forall E e1 e2 m i, nocase_pair e1 e2 = true -> name_ok e1 = true ->
  spec (fun r _ n => ahead i r /\ n = S (length e1 + length e2)) (fun n => n = S (length e1 + length e2)) (t_tag_no_case E e1 e2 m i) /\ (begins is_wsp i -> nope (t_tag_no_case E e1 e2 m i)).
Proof.
  intros E e1 e2 m i H N. split.
  - pose proof (post_tag_no_case E (fun _ => True) e1 e2 m i H) as P. unfold t_tag_no_case, t_step. destruct (tag_no_case E e1 e2 m i) as [[r []]|e|c]; cbn in *; [|reflexivity|exact I]. destruct P as (c & -> & P). split; [|reflexivity]. apply ahead_app.
    assert (Y : same_nocase e1 c \/ same_nocase c e1) by tauto. assert (X : same_nocase e1 c) by (destruct Y as [Y|Y]; [exact Y|exact (eq_sym Y)]). eapply nocase_no_cr; [exact X|]. apply Forall_forall. intros x Hx. destruct e1 as [|a e1]; [contradiction|]. cbn [name_ok] in N. apply andb_true_iff in N as [_ N]. rewrite forallb_forall in N. specialize (N x Hx). lia.
  - intros (w & t & -> & W). unfold t_tag_no_case, t_step, nope. rewrite tag_no_case_spec by exact H. destruct e1 as [|a e1]; [discriminate|]. cbn [name_ok] in N. apply andb_true_iff in N as [N _]. cbn [starts_nocase].
    destruct (fold_case w =? fold_case a)%N eqn:X; [|cbn [andb]; destruct (_ <? _); exact I]. exfalso. apply N.eqb_eq in X. rewrite <- X in N. unfold fold_case, is_wsp in *. destruct ((65 <=? w) && (w <=? 90))%N eqn:Y; lia.
Qed.
Definition sized {A} (size : A -> nat) (i : bytes) (x : timed (bytes * A)) : Prop := spec (fun _ a _ => size a <= 2 * length i) (fun _ => True) x.
Lemma sized_zero : forall A i (x : timed (bytes * A)), sized (fun _ => 0) i x.
Proof. intros. apply spec_true; intros; auto. lia. Qed.
Lemma head_header : forall A E e1 e2 m (v : timed_parser A) m' K k size, nocase_pair (bs e1) (bs e2) = true -> name_ok (bs e1) = true ->
  (forall i, upto K k i (v i)) -> (forall i, sized size i (v i)) -> head (S (length (bs e1) + length (bs e2)) + K + k + 3) size (t_header E e1 e2 m v m').
Proof.
  intros A E e1 e2 m v m' K k size N1 N2 Hv Hs i. destruct (s_name E (bs e1) (bs e2) m i N1 N2) as [T1 T2]. unfold t_header. split; [|intros W; apply nope_bind, T2, W].
  set (T := S (length (bs e1) + length (bs e2))) in *. assert (R : forall x n, x <= reach i -> n <= T + (K * x + k) + 3 -> n <= (T + K + k + 3) * S (reach i)).
  { intros x n X Y. pose proof (mono K x (reach i) X). assert (T * 1 <= T * S (reach i)) by (apply mono; lia). assert (k * 1 <= k * S (reach i)) by (apply mono; lia). lia. }
  eapply spec_bind; [exact T1|cbn beta; intros n ->; apply (R 0); lia|]. cbn beta. intros j [] n [A1 ->]. eapply spec_bind; [eapply spec_and; [apply Hv|apply Hs]|cbn beta; intros n [H _]; apply (R (reach j)); [ah|lia]|]. cbn beta.
  intros r a n ((H1 & H2) & H3). eapply spec_bind; [apply s_tag|cbn beta; intros q [-> _]; cbn [CRLF length]; apply (R (reach j)); [ah|lia]|]. cbn beta. intros r' [] q [-> ->]. apply spec_ok. cbn [CRLF length].
  split; [eapply lined_crlf; [|reflexivity]; ah|]. split; [ah|]. apply (R (reach j)); [ah|]. lia.
Qed.
(* a parser for each configuration *)
Definition headed {A} (size : A -> nat) (p : env -> timed_parser A) : Prop := exists C, forall E, head C size (p E).
Definition linear {A} (p : env -> timed_parser A) : Prop := exists K k, forall E i, upto K k i (p E i).
Definition heads {A} (size : A -> nat) (ps : env -> list (timed_parser A)) : Prop := headed size (fun E => t_match_parsers (ps E)).
Lemma headed_header : forall A e1 e2 m (v : env -> timed_parser A) m' size, nocase_pair (bs e1) (bs e2) = true -> name_ok (bs e1) = true -> linear v -> (forall E i, sized size i (v E i)) ->
  headed size (fun E => t_header E e1 e2 m (v E) m').
Proof. intros A e1 e2 m v m' size N1 N2 (K & k & H) Hs. eexists. intros E. apply (head_header _ E e1 e2 m (v E) m' K k size N1 N2); auto. Qed.
Lemma headed_pmap : forall A B size size' (f : A -> B) (p : env -> timed_parser A), headed size p -> (forall a, size' (f a) <= size a) -> headed size' (fun E => t_pmap f (p E)).
Proof. intros A B size size' f p [C H] L. exists C. intros E. exact (head_pmap _ _ _ _ _ _ _ (H E) L). Qed.
Lemma headed_resent : forall A m size (p : env -> timed_parser A), headed size p -> headed size (fun E => t_resent E m (p E)).
Proof.
  intros A m size p [C H]. exists (C + 20). intros E i. unfold t_resent. destruct (s_name E (bs "Resent-") (bs "rESENT-") m i eq_refl eq_refl) as [T1 T2]. split; [|intros W; apply nope_bind, T2, W].
  change (S (length (bs "Resent-") + length (bs "rESENT-"))) with 15 in T1. eapply spec_bind; [exact T1|cbn beta; intros n ->; lia|]. cbn beta. intros j [] n [A1 ->]. destruct (H E j) as [H1 _]. pose proof (mono C (S (reach j)) (S (reach i)) ltac:(ah)).
  eapply spec_weak; [exact H1| |]; cbn beta; [|intros; lia]. intros r a n (X & Y & Z). split; [eapply lined_ahead; eassumption|]. split; [ah|lia].
Qed.
Lemma heads_nil : forall A (size : A -> nat), heads size (fun _ => []).
Proof. intros A size. exists 0. intros E i. cbn. split; [lia|auto]. Qed.
Lemma head_cons : forall A C C' size (p : timed_parser A) ps, head C size p -> head C' size (t_match_parsers ps) -> head (C + C') size (t_match_parsers (p :: ps)).
Proof.
  intros A C C' size p ps H1 H2 i. destruct (H1 i) as [P1 P2]. destruct (H2 i) as [Q1 Q2]. cbn [t_match_parsers]. split.
  - eapply spec_attempt; [exact P1| |]; cbn beta.
    + intros r a n (X & Y & Z). apply spec_ok. split; [exact X|]. split; [exact Y|lia].
    + intros n L. eapply spec_weak; [exact Q1| |]; cbn beta; [intros r a m (X & Y & Z); split; [exact X|]; split; [exact Y|lia]|intros; lia].
  - intros W. specialize (P2 W). specialize (Q2 W). destruct (p i) as [[[r a]|e|c] n]; cbn in *; [contradiction| |exact I]. destruct (t_match_parsers ps i) as [[[r a]|e'|c] m]; cbn in *; auto.
Qed.
Lemma heads_cons : forall A (size : A -> nat) p ps, headed size p -> heads size ps -> heads size (fun E => p E :: ps E).
Proof. intros A size p ps [C H1] [C' H2]. exists (C + C'). intros E. now apply head_cons. Qed.
Lemma heads_cfg : forall A (size : A -> nat) (b : env -> bool) p ps, headed size p -> heads size ps -> heads size (fun E => t_cfg (b E) (p E) ++ ps E).
Proof.
  intros A size b p ps [C H1] [C' H2]. exists (C + C'). intros E. unfold t_cfg. destruct (b E); [now apply head_cons|]. cbn [app]. eapply head_weak; [apply H2|lia].
Qed.

(* ---- the headers ---- *)
Definition one_box (l : list mailbox_t) : nat := match l with [m] => mailbox_size m | _ => 0 end.
Lemma linear_mono : forall A (p : timed_parser A) K k, (forall i, upto K k i (p i)) -> linear (fun _ => p).
Proof. intros A p K k H. exists K, k. intros _. exact H. Qed.
Ltac hh := apply headed_header; [reflexivity|reflexivity| |intros; apply sized_zero].
Lemma h_date : headed (fun _ => 0) t_field_date.
Proof. hh. do 2 eexists. intros. apply upto_date_time. Qed.
Lemma h_from : headed one_box t_field_from.
Proof.
  apply headed_header; [reflexivity|reflexivity|do 2 eexists; intros; apply upto_mailbox_list|]. intros E i. eapply spec_weak; [apply s_mailbox_list| |auto]. cbn beta. intros r l n (_ & _ & H & _). destruct l as [|m [|m' l]]; cbn [one_box map list_sum fold_right] in *; lia.
Qed.
Lemma h_sender : headed (fun _ => 0) t_field_sender.
Proof. hh. do 2 eexists. intros. apply upto_mailbox. Qed.
Lemma h_reply_to : headed (fun _ => 0) t_field_reply_to.
Proof. hh. exact upto_address_list. Qed.
Lemma h_to : headed (fun _ => 0) t_field_to.
Proof. hh. exact upto_address_list. Qed.
Lemma h_cc : headed (fun _ => 0) t_field_cc.
Proof. hh. exact upto_address_list. Qed.
Lemma h_bcc : headed (fun _ => 0) t_field_bcc.
Proof. hh. exact upto_bcc. Qed.
Lemma h_message_id : headed (fun _ => 0) t_field_message_id.
Proof. hh. do 2 eexists. intros. apply upto_message_id. Qed.
Lemma h_in_reply_to : headed (fun _ => 0) t_field_in_reply_to.
Proof. hh. do 2 eexists. intros. apply upto_message_ids. Qed.
Lemma h_references : headed (fun _ => 0) t_field_references.
Proof. hh. do 2 eexists. intros. apply upto_message_ids. Qed.
Lemma h_subject : headed (fun _ => 0) t_field_subject.
Proof. apply (headed_header _ _ _ _ (fun _ => t_unstructured)); [reflexivity|reflexivity| |intros; apply sized_zero]. do 2 eexists. intros. apply upto_text. Qed.
Lemma h_comments : headed (fun _ => 0) t_field_comments.
Proof. apply (headed_header _ _ _ _ (fun _ => t_unstructured)); [reflexivity|reflexivity| |intros; apply sized_zero]. do 2 eexists. intros. apply upto_text. Qed.
Lemma h_keywords : headed (fun _ => 0) t_field_keywords.
Proof. apply (headed_header _ _ _ _ (fun _ => t_keywords_value)); [reflexivity|reflexivity| |intros; apply sized_zero]. do 2 eexists. intros. apply upto_keywords. Qed.
Lemma h_return_path : headed (fun _ => 0) t_return_path.
Proof. hh. do 2 eexists. intros. apply upto_return_path. Qed.
Lemma h_received : headed (fun _ => 0) t_received.
Proof. hh. exact upto_received. Qed.
Lemma h_unknown : headed (fun _ => 0) (fun _ => t_unknown).
Proof.
  exists 300. intros _ i. unfold t_unknown. change (bs ":") with [58%N]. split.
  - eapply spec_bind; [apply s_take_while1; exact ftext_plain|cbn beta; intros n [-> _]; lia|]. cbn beta. intros j name n (H1 & _ & H2 & _ & -> & _). eapply spec_bind; [apply s_char; lia|cbn beta; intros n ->; ah|]. cbn beta. intros j2 [] n (-> & K1 & K2 & ->).
    eapply spec_bind; [apply upto_text|cbn beta; intros n L; ah|]. cbn beta. intros j3 v n (L1 & L2). eapply spec_bind; [apply s_tag|cbn beta; intros q [-> _]; cbn [CRLF length]; ah|]. cbn beta. intros r [] q [-> ->]. apply spec_ok. cbn [CRLF length].
    split; [eapply lined_crlf; [|reflexivity]; ah|]. split; [lia|ah].
  - intros W. apply nope_bind. destruct (take1_miss is_ftext i) as [e X]; [eapply begins_stops; [exact W|]; unfold is_wsp, is_ftext; lia|]. rewrite X. exact I.
Qed.
Ltac rs h := apply (heads_cons trace_field (fun _ => 0)); [eapply headed_pmap; [apply headed_resent; exact h|intros; apply Nat.le_0_l]|].
Lemma h_resent_field : headed (fun _ => 0) t_resent_field.
Proof. unfold t_resent_field. rs h_date. rs h_from. rs h_sender. rs h_to. rs h_cc. rs h_bcc. rs h_message_id. apply (heads_nil trace_field (fun _ => 0)). Qed.
(* the copy of a lone From mailbox *)
Definition weight (f : field) : nat := match f with FFrom l => one_box l | _ => 0 end.
Ltac af h := apply (heads_cfg field weight); [eapply headed_pmap; [exact h|intros; cbn [weight]; first [apply Nat.le_0_l|apply Nat.le_refl]]|].
Lemma h_any_field : headed weight t_any_field.
Proof.
  unfold t_any_field, t_field_parsers. af h_date. af h_from. af h_sender. af h_reply_to. af h_to. af h_cc. af h_bcc. af h_message_id. af h_in_reply_to. af h_references. af h_subject. af h_comments. af h_keywords.
  apply (heads_cons field weight (fun _ => t_pmap (fun '(n, v) => FUnknown n v) t_unknown) (fun _ => [])); [|apply heads_nil]. eapply (headed_pmap _ _ _ _ _ (fun _ => t_unknown)); [exact h_unknown|]. intros [n v]. apply Nat.le_0_l.
Qed.

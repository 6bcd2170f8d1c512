(* The work of the whole parser is linear in the length of the mail. *)
From Coq Require Import Lia ZifyBool ZifyNat ZifyN.
From Verif Require Import Base Utf8 CharSets Combinators Whitespace QuotedString Common Time Address MimeFields Fields Message Entity Email Envs EmailSpec SafetyProofs Rfc5322 Post Timed TimedErase TimedFacts TimedWords TimedAddr TimedBox TimedVals TimedHead.
Local Open Scope nat_scope.

(* ---- loops over headers ---- *)
(* r is further in the mail than i, by at least what is left of the header at i *)
Definition past (i r : bytes) : Prop := length r <= length i /\ length r + reach i <= length i + reach r.
Lemma past_refl : forall i, past i i.
Proof. unfold past. lia. Qed.
Lemma past_trans : forall i j r, past i j -> past j r -> past i r.
Proof. unfold past. lia. Qed.
Lemma lined_past : forall i r, lined i r -> past i r.
Proof. unfold lined, past. intros i r [H1 [H2|[_ H2]]]; [lia|]. unfold ahead in H2. lia. Qed.
Definition cheap (c : nat) (i r : bytes) (n : nat) : Prop := past i r /\ n + c * length r <= c * length i + c * S (reach r).
Lemma cheap_weak : forall c c' i r n, cheap c i r n -> c <= c' -> cheap c' i r n.
Proof.
  intros c c' i r n [H1 H2] L. split; [exact H1|]. assert (exists q, c' = c + q) as [q ->] by (exists (c' - c); lia). destruct H1 as [H1 _]. pose proof (mono q (length r) (length i) H1). lia.
Qed.
Lemma cheap_trans : forall c i j r n m, cheap c i j n -> cheap c j r m -> cheap (2 * c) i r (n + m).
Proof.
  intros c i j r n m [H1 H2] [K1 K2]. split; [eapply past_trans; eassumption|]. destruct H1 as [H1 _]. destruct K1 as [K1 K3]. pose proof (mono c (length r + reach j) (length j + reach r) K3). pose proof (mono c (length j) (length i) H1). lia.
Qed.
Lemma lined_cheap : forall c i r n, lined i r -> n <= c * S (reach i) -> cheap c i r n.
Proof.
  intros c i r n H L. pose proof (lined_past i r H) as P. split; [exact P|]. destruct P as [P1 P2]. pose proof (mono c (length r + reach i) (length i + reach r) P2). lia.
Qed.
Definition run {A} (c : nat) (size : A -> nat) (i r : bytes) (l : list A) (n : nat) : Prop :=
  cheap c i r n /\ length l + length r <= length i /\ Forall (fun a => size a <= 2 * length i) l /\ (begins is_wsp i -> r = i).
Lemma head_run : forall A C size (p : timed_parser A), head C size p -> forall n i, spec (run (2 * S C) size i) (fun _ => False) (t_many_fuel n p i).
Proof.
  intros A C size p Hp. assert (Fine : forall n i, spec (fun r l m => past i r /\ m + S C * length r <= S C * length i + 2 * S C * S (reach r) /\ length l + length r <= length i /\ Forall (fun a => size a <= 2 * length i) l /\ (begins is_wsp i -> r = i)) (fun _ => False) (t_many_fuel n p i)).
  { induction n as [|n IH]; intros i; [exact I|]. cbn [t_many_fuel]. apply spec_turn. destruct (Hp i) as [H1 H2]. destruct (p i) as [[[j a]|e|c] m] eqn:P; cbn [spec] in H1; [|cbn|exact I].
    - destruct H1 as (H1 & H3 & H4). unfold t_attempt. destruct (stops_or is_wsp j) as [W|W].
      + specialize (IH j). destruct (t_many_fuel n p j) as [[[r l]|e|c] q]; cbn in *; [|exact IH|exact I]. destruct IH as (I1 & I2 & I3 & I4 & _). destruct H1 as [H1 [H5|[H5 _]]]; [|exfalso; eapply begins_not; eassumption].
        split; [unfold past in *; lia|]. split; [pose proof (mono (S C) (S (reach i) + length j) (length i) ltac:(lia)); lia|]. split; [lia|]. split; [|intros X; exfalso; exact (H2 X)]. constructor; [exact H3|]. eapply Forall_impl; [|exact I4]. cbn. intros. unfold past in I1. lia.
      + destruct n as [|n]; [exact I|]. cbn [t_many_fuel]. destruct (Hp j) as [J1 J2]. specialize (J2 W). destruct (p j) as [[[r b]|e|c] q]; cbn [nope spec] in J2; [contradiction| |exact I]. cbn [spec] in J1. cbn. pose proof (lined_past i j H1) as Pa. destruct H1 as [H1 H5].
        split; [exact Pa|]. split; [destruct Pa as [_ Pa]; pose proof (mono C (length j + reach i) (length i + reach j) Pa); lia|]. split; [lia|]. split; [repeat constructor; exact H3|]. intros X. exfalso. exact (H2 X).
    - split; [apply past_refl|]. split; [lia|]. split; [lia|]. split; [constructor|auto]. }
  intros n i. eapply spec_weak; [apply Fine| |auto]. cbn beta. intros r l m (H1 & H2 & H3 & H4 & H5). split; [|auto]. split; [exact H1|]. destruct H1 as [H1 _]. pose proof (mono (S C) (length r) (length i) H1). lia.
Qed.
Lemma s_run : forall A C size (p : timed_parser A), head C size p -> forall i, spec (run (2 * S C) size i) (fun _ => False) (t_many p i).
Proof. intros A C size p H i. exact (head_run _ _ _ _ H _ i). Qed.

(* ---- trace blocks ---- *)
(* a block has at least one line, and is read at no further line of a header *)
Definition block (c : nat) (p : timed_parser field) : Prop := forall i,
  spec (fun r a n => S n + c * length r <= c * length i + c * S (reach r) /\ length r < length i /\ weight a = 0 /\ (S (reach i) + length r <= length i \/ begins is_wsp r /\ past i r)) (fun n => S n <= c * S (length i)) (p i) /\ (begins is_wsp i -> nope (p i)).
Lemma optional_head : forall A C size (p : timed_parser A), head C size p -> forall i,
  spec (fun r o n => (r = i \/ lined i r /\ stops is_wsp i) /\ n <= C * S (reach i)) (fun _ => False) (t_optional p i).
Proof.
  intros A C size p H i. destruct (H i) as [H1 H2]. unfold t_optional. destruct (p i) as [[[r a]|e|c] n]; cbn in *; [|split; [auto|lia]|exact I]. destruct H1 as (H1 & _ & H3). split; [|lia]. right. split; [exact H1|]. destruct (stops_or is_wsp i) as [W|W]; [exact W|contradiction (H2 W)].
Qed.
Definition block_of (E : env) (q : timed_parser trace_field) : timed_parser field := fun i =>
  let+ (i, (rp, rc)) := t_trace E i in
  let+ (i, l) := t_many q i in
  t_ok (i, FTrace rp rc l).
Lemma block_cost : exists C, forall E C3 q, head C3 (fun _ => 0) q -> block (8 * S (C + C3) + 8) (block_of E q).
Proof.
  destruct h_return_path as [C1 H1]. destruct h_received as [C2 H2]. exists (C1 + C2). intros E C3 q H3 i. set (c := 2 * S (C1 + C2 + C3)). replace (8 * S (C1 + C2 + C3) + 8) with (4 * c + 8) by (unfold c; lia). split.
  - unfold block_of, t_trace.
    eapply spec_bind with (G := fun i3 _ n => (exists n1 n2, n = n1 + n2 /\ exists i2, cheap (2 * c) i i2 n1 /\ cheap c i2 i3 n2) /\ length i3 < length i /\ (S (reach i) + length i3 <= length i \/ begins is_wsp i3 /\ past i i3)) (B := fun n => n <= (C1 + C2) * S (length i)).
    + pose proof (reach_length i) as Li. eapply spec_bind; [exact (optional_head _ _ _ _ (H1 E) i)|intros n []|]. cbn beta. intros i1 o n1 [P1 N1]. assert (L1 : length i1 <= length i) by (destruct P1 as [->|[[P1 _] _]]; lia). pose proof (reach_length i1) as Li1.
      pose proof (mono C1 (S (reach i)) (S (length i)) ltac:(lia)) as M1. pose proof (mono C2 (S (reach i1)) (S (length i)) ltac:(lia)) as M2.
      assert (P1' : past i i1) by (destruct P1 as [->|[P1 _]]; [apply past_refl|now apply lined_past]).
      assert (Ch1 : cheap c i i1 n1). { split; [exact P1'|]. destruct P1' as [_ P2]. pose proof (mono c (length i1 + reach i) (length i + reach i1) P2). assert (n1 <= c * S (reach i)) by (pose proof (Nat.mul_le_mono_r C1 c (S (reach i)) ltac:(unfold c; lia)); lia). lia. }
      unfold t_many1. assert (R1 : spec (fun r a n => lined i1 r /\ stops is_wsp i1 /\ n <= C2 * S (reach i1)) (fun n => n <= C2 * S (reach i1)) (t_received E i1)).
      { destruct (H2 E i1) as [R1 R2]. destruct (t_received E i1) as [[[r a]|e|x] n]; cbn [spec nope] in *; [|exact R1|exact I]. destruct R1 as (R1 & _ & R3). split; [exact R1|]. split; [|exact R3]. destruct (stops_or is_wsp i1) as [W|W]; [exact W|contradiction (R2 W)]. }
      eapply spec_bind with (B := fun n => n1 + n <= (C1 + C2) * S (length i)); [|auto|].
      * eapply spec_bind; [exact R1|cbn beta; intros n N; lia|]. cbn beta. intros i2 x n2 (P2 & W & N2).
        eapply spec_bind; [exact (s_run _ _ _ _ (H2 E) i2)|intros n []|]. cbn beta. intros i3 l n3 (R3 & R4 & _ & R5). apply spec_ok.
        instantiate (1 := fun i3 _ n => (exists na nb, n1 + n = na + nb /\ exists i2, cheap (2 * c) i i2 na /\ cheap c i2 i3 nb) /\ length i3 < length i /\ (S (reach i) + length i3 <= length i \/ begins is_wsp i3 /\ past i i3)).
        cbn beta. split; [|split].
        -- exists (n1 + n2), (n3 + 0). split; [lia|]. exists i2. split; [apply (cheap_trans c i i1 i2); [exact Ch1|]|rewrite Nat.add_0_r; eapply cheap_weak; [exact R3|unfold c; lia]].
           eapply cheap_weak; [eapply lined_cheap; [exact P2|exact N2]|unfold c; lia].
        -- destruct P2 as [P2 _]. destruct R3 as [[R3 _] _]. lia.
        -- destruct R3 as [[R3 _] _]. destruct P1 as [->|[P1 _]].
           ++ destruct P2 as [P2 [P3|[P3 P4]]]; [left; lia|]. right. rewrite (R5 P3). split; [exact P3|]. unfold past, ahead in *. lia.
           ++ destruct P2 as [P2 _]. destruct P1 as [P1 [P3|[P3 _]]]; [left; lia|]. exfalso. eapply begins_not; eassumption.
      * cbn beta. intros i3 x n H. apply spec_ok. rewrite Nat.add_0_r. exact H.
    + intros n N. pose proof (mono (C1 + C2) (S (length i)) (S (length i)) ltac:(lia)). unfold c. lia.
    + cbn beta. intros i3 [rp rc] n ((n1 & n2 & -> & i2 & Ch1 & Ch2) & L3 & P3). eapply spec_bind; [exact (s_run _ _ _ _ H3 i3)|intros m []|]. cbn beta. intros r l m (R3 & R4 & _ & R5). apply spec_ok.
      assert (Ch3 : cheap c i3 r m) by (eapply cheap_weak; [exact R3|unfold c; lia]). pose proof (cheap_trans _ _ _ _ _ _ Ch1 (cheap_trans _ _ _ _ _ _ Ch2 Ch3)) as [_ Ch]. destruct R3 as [[R3 R6] _].
      split; [lia|]. split; [lia|]. split; [reflexivity|]. destruct P3 as [P3|[P3 P4]]; [left; lia|right]. rewrite (R5 P3). auto.
  - intros W. unfold block_of, t_trace. apply nope_bind. destruct (H1 E i) as [_ X1]. destruct (H2 E i) as [_ X2]. specialize (X1 W). specialize (X2 W). unfold t_optional, t_many1. destruct (t_return_path E i) as [[[r a]|e|x] n]; cbn [nope spec] in X1; [contradiction| |exact I].
    cbn [t_attempt t_ok fst snd t_bind]. destruct (t_received E i) as [[[r a]|e'|x] m]; cbn [nope spec] in X2; [contradiction|exact I|exact I].
Qed.
Lemma t_trace_block_cost : exists c, forall E, block c (t_trace_block E).
Proof. destruct block_cost as [C H]. destruct h_resent_field as [C3 H3]. exists (8 * S (C + C3) + 8). intros E. exact (H E C3 _ (H3 E)). Qed.
Lemma block_run : forall c p, block c p -> forall n i,
  spec (fun r l m => length l + length r <= length i /\ Forall (fun a => weight a = 0) l /\ m + c * S (reach i) + 2 * c * length r <= 2 * c * length i + 4 * c * S (length r)) (fun _ => False) (t_many_fuel n p i).
Proof.
  intros c p Hp. induction n as [|n IH]; intros i; [exact I|]. cbn [t_many_fuel]. apply spec_turn. pose proof (reach_length i) as Li. pose proof (mono c (reach i) (length i) Li) as Mi. destruct (Hp i) as [H1 H2]. destruct (p i) as [[[j a]|e|x] m] eqn:P; cbn [spec] in H1; [|cbn|exact I].
  - destruct H1 as (H1 & H3 & H4 & H5). unfold t_attempt. pose proof (reach_length j) as Lj. pose proof (mono c (reach j) (length j) Lj) as Mj. destruct H5 as [H5|[H5 H6]].
    + specialize (IH j). destruct (t_many_fuel n p j) as [[[r l]|e|x] q]; cbn in *; [|exact IH|exact I]. destruct IH as (I1 & I2 & I3). pose proof (mono c (S (reach i) + length j) (length i) H5). split; [lia|]. split; [constructor; assumption|]. lia.
    + destruct n as [|n]; [exact I|]. cbn [t_many_fuel]. destruct (Hp j) as [J1 J2]. specialize (J2 H5). destruct (p j) as [[[r b]|e|x] q]; cbn [nope spec] in J2; [contradiction| |exact I]. cbn [spec] in J1. cbn. destruct H6 as [_ H6]. pose proof (mono c (length j + reach i) (length i + reach j) H6).
      split; [lia|]. split; [repeat constructor; assumption|]. lia.
  - split; [lia|]. split; [constructor|]. lia.
Qed.
(* ---- all headers ---- *)
Lemma fields_spent : forall c C (b : bool) (p q : timed_parser field) size i, block c p -> head C size q -> (forall f, weight f = 0 -> size f = 0) ->
  spec (fun r l n => length l + length r <= length i /\ Forall (fun f => size f <= 2 * length i) l /\ n <= (6 * c + 4 * S C) * S (length i)) (fun _ => False)
    (let+ (i, t) := if b then t_many p i else t_ok (i, []) in let+ (i, l) := t_many q i in t_ok (i, t ++ l)).
Proof.
  intros c C b p q size i Hc HC Hs.
  eapply spec_bind with (G := fun r l n => length l + length r <= length i /\ Forall (fun f => weight f = 0) l /\ n <= 6 * c * S (length i)) (B := fun _ => False).
  - destruct b; [|apply spec_ok; split; [cbn; lia|]; split; [constructor|lia]]. eapply spec_weak; [exact (block_run c _ Hc _ i)| |auto]. cbn beta. intros r l n (H1 & H2 & H3). split; [exact H1|]. split; [exact H2|]. pose proof (mono c (length r) (length i) ltac:(lia)). lia.
  - intros n [].
  - cbn beta. intros j l n (H1 & H2 & H3). eapply spec_bind; [exact (s_run _ _ _ _ HC j)|intros m []|]. cbn beta. intros r l' m (R1 & R2 & R3 & _). apply spec_ok. rewrite app_length. destruct R1 as [[R1 R4] R5]. pose proof (reach_length r) as Lr.
    split; [lia|]. split; [apply Forall_app; split; eapply Forall_impl; try eassumption; cbn; intros f X; [apply Hs in X; lia|lia]|]. pose proof (mono (S C) (reach r) (length i) ltac:(lia)). pose proof (mono (S C) (length j) (length i) ltac:(lia)). lia.
Qed.
Lemma fields_cost : exists K, forall E i, spec (fun r l n => length l + length r <= length i /\ Forall (fun f => weight f <= 2 * length i) l /\ n <= K * S (length i)) (fun _ => False) (t_fields E i).
Proof.
  destruct t_trace_block_cost as [c Hc]. destruct h_any_field as [C HC]. exists (6 * c + 4 * S C). intros E i. exact (fields_spent c C (f_trace E) _ _ weight i (Hc E) (HC E) (fun f X => X)).
Qed.
(* ---- the body ---- *)
Lemma line_loop_length : forall n i, length (fst (line_loop n i)) + length (snd (line_loop n i)) = length i.
Proof. induction n as [|n IH]; intros [|c i]; cbn [line_loop fst snd length]; try lia. destruct (is_text c); [|cbn; lia]. specialize (IH i). destruct (line_loop n i) as [a b]. cbn in *. lia. Qed.
Lemma body_loop_cost : forall n i, snd (t_body_loop n i) <= 4 * length i + 4.
Proof.
  induction n as [|n IH]; intros i; [cbn; lia|]. cbn [t_body_loop]. unfold t_check_line, check_line, t_step. pose proof (line_loop_length 998 i) as L. destruct (line_loop 998 i) as [a r]. cbn [fst snd t_bind] in *.
  pose proof (s_tag CRLF "TAG ERROR: In a body, a line must end with a CRLF sequence." r) as T. unfold t_tag, t_step, spec in T. destruct (tag CRLF _ r) as [[r' []]|e|x]; cbn [t_bind fst snd].
  - destruct T as [-> _]. rewrite app_length in L. cbn [CRLF length] in L. specialize (IH r'). ah.
  - destruct r; cbn [snd]; ah.
  - ah.
Qed.
Lemma body_cost : forall i, snd (t_body i) <= 4 * length i + 8.
Proof.
  intros [|c i]; [cbn; lia|]. unfold t_body. set (d := c :: i) in *. pose proof (s_tag CRLF "TAG ERROR: Headers must be followed by a CRLF sequence." d) as T. unfold t_tag, t_step, spec in T. unfold t_tag, t_step at 1. destruct (tag CRLF _ d) as [[r []]|e|x]; cbn [t_bind snd].
  - destruct T as [T _]. assert (L : length d = 2 + length r) by (rewrite T, app_length; reflexivity). cbn [CRLF length]. pose proof (body_loop_cost (S (length r)) r) as B. destruct (t_body_loop (S (length r)) r) as [[[]|e|x] m]; cbn [t_bind fst snd] in *; try lia.
    unfold t_step. destruct (unchecked_from d 2) as [b|e|x]; cbn [t_bind fst snd]; try lia. destruct (str_unchecked b); cbn [t_bind t_ok fst snd]; lia.
  - cbn [CRLF length]. lia.
  - cbn [CRLF length]. lia.
Qed.

(* ---- the mail ---- *)
Lemma set_field_from : forall a f a', set_field a f = Ok a' -> v_from a' = v_from a \/ exists l, f = FFrom l /\ v_from a' = Some l.
Proof.
  intros a f a' H. destruct f as [l| | | | | | | | | | | | | | | | | | | |]; cbn in H;
    try (right; destruct (v_from a); [discriminate|]; injection H as <-; exists l; split; reflexivity);
    left; repeat match type of H with context [set_once ?x _ _] => destruct x; cbn in H; [discriminate|] end; injection H as <-; reflexivity.
Qed.
Lemma set_fields_from : forall fs a a' l, set_fields a fs = Ok a' -> v_from a = None -> v_from a' = Some l -> In (FFrom l) fs.
Proof.
  assert (G : forall fs a a' l, set_fields a fs = Ok a' -> v_from a' = Some l -> v_from a = Some l \/ In (FFrom l) fs).
  { induction fs as [|f fs IH]; intros a a' l H L; cbn in H; [injection H as ->; auto|]. destruct (set_field a f) as [b|e|c] eqn:X; cbn in H; [|discriminate..]. destruct (IH _ _ _ H L) as [Y|Y]; [|right; now right].
    apply set_field_from in X as [X|(l' & -> & X)]; [left; congruence|right; left]. congruence. }
  intros fs a a' l H N L. destruct (G fs a a' l H L) as [X|X]; [congruence|exact X].
Qed.
Theorem t_parse_linear : exists K, forall E d, env_ok E -> f_mime E = false -> snd (t_parse E d) <= K * S (length d).
Proof.
  destruct fields_cost as [K H]. exists (K + 20). intros E d HE HM. assert (HU : f_unrecognized_headers E = false) by (destruct (f_unrecognized_headers E) eqn:U; [apply (ok_unrecognized E HE) in U; congruence|reflexivity]). pose proof (t_parse_erases E HM HU d) as X. assert (NC : forall c, fst (t_parse E d) <> Crash c).
  { intros c. rewrite X. destruct (parse_total E d HE (or_intror HM)) as [[e Y]|[e Y]]; rewrite Y; discriminate. }
  clear X. revert NC. unfold t_parse, t_parse_message. specialize (H E d). destruct (t_fields E d) as [[[r fs]|e|c] n] eqn:F; cbn [spec] in H; [|contradiction|intros NC; exfalso; exact (NC c eq_refl)]. destruct H as (H1 & H2 & H3).
  intros NC. pose proof (body_cost r) as B. cbn [t_bind] in *. destruct (t_body r) as [[b|e|c] m]; cbn [t_bind t_ok fst snd] in *; [|lia|lia].
  unfold t_set_fields, t_step in *. destruct (set_fields acc0 fs) as [a|e|c] eqn:SF; cbn [t_bind fst snd] in *; [|lia|lia]. unfold t_finish, t_step in *. cbn [fst snd].
  assert (W : match v_from a with Some [x] => mailbox_size x | _ => 0 end <= 2 * length d).
  { destruct (v_from a) as [l|] eqn:V; [|lia]. apply (set_fields_from fs acc0 a l SF eq_refl) in V. rewrite Forall_forall in H2. specialize (H2 _ V). cbn [weight] in H2. unfold one_box in H2. destruct l as [|x [|y l]]; lia. }
  lia.
Qed.

(* What a mail and an entity cost at least with mime: no mail format keeps the work quadratic, or
   the work of an entity linear. *)
From Coq Require Import Lia ZifyBool ZifyNat ZifyN.
From Verif Require Import Base Utf8 CharSets Charset QuotedPrintable Combinators Whitespace QuotedString EncodedWord Common Time Address MimeFields Fields Message Entity Email Envs Rfc5322 Post Timed TimedErase TimedCodec TimedCodecFacts TimedCodecLow TimedSearch TimedMime TimedMimeErase TimedMimeMail.
Local Open Scope nat_scope.
Ltac blia := unfold bytes, byte in *; lia.

(* ---- running a parser several times ---- *)
Inductive chain {A} (p : timed_parser A) : nat -> nat -> bytes -> bytes -> Prop :=
| chain_nil : forall i, chain p 0 0 i i
| chain_cons : forall c n k i r a j, fst (p i) = Ok (r, a) -> c <= snd (p i) -> length r < length i -> chain p n k r j -> chain p (S n) (c + k) i j.
Lemma chain_length : forall A (p : timed_parser A) n k i j, chain p n k i j -> n + length j <= length i.
Proof. induction 1; [lia|]. blia. Qed.
Lemma chain_many_fuel : forall A (p : timed_parser A) n k i j e f, chain p n k i j -> fst (p j) = Err e -> n < f -> (exists l, length l = n /\ fst (t_many_fuel f p i) = Ok (j, l)) /\ k <= snd (t_many_fuel f p i).
Proof.
  intros A p n k i j e f H HE. revert f. induction H as [i|c n k i r a j P C L H IH]; intros f F; (destruct f as [|f]; [lia|]); cbn [t_many_fuel t_step t_bind].
  - destruct (p i) as [x m]. cbn [fst] in HE. subst x. cbn. split; [exists []; split; reflexivity|lia].
  - destruct (p i) as [x m]. cbn [fst snd] in P, C. subst x. cbn [t_attempt fst snd]. specialize (IH HE f). destruct (t_many_fuel f p r) as [x w]. cbn [fst snd] in IH. destruct IH as [(l & E1 & ->) K]; [lia|].
    cbn. split; [exists (a :: l); cbn; split; [lia|reflexivity]|lia].
Qed.
Lemma chain_many : forall A (p : timed_parser A) n k i j e, chain p n k i j -> fst (p j) = Err e -> (exists l, length l = n /\ fst (t_many p i) = Ok (j, l)) /\ k <= snd (t_many p i).
Proof. intros A p n k i j e H HE. unfold t_many. eapply chain_many_fuel; [exact H|exact HE|]. apply chain_length in H. lia. Qed.
Lemma chain_one : forall A (p : timed_parser A) c i r a, fst (p i) = Ok (r, a) -> c <= snd (p i) -> length r < length i -> chain p 1 (c + 0) i r.
Proof. intros. eapply chain_cons; eauto. constructor. Qed.
Lemma chain_app : forall A (p : timed_parser A) n k i j m l r, chain p n k i j -> chain p m l j r -> chain p (n + m) (k + l) i r.
Proof. intros A p n k i j m l r H G. induction H; [exact G|]. rewrite <- Nat.add_assoc. cbn [plus]. eapply chain_cons; eauto. Qed.

(* ---- the text ---- *)
Definition DQ : bytes := [34%N].
Definition run (k : nat) : bytes := times k (bs "=41").
Definition tail_text : bytes := CRLF ++ bs "Sender: a@b" ++ CRLF ++ bs "Date: Mon, 1 Jan 2024 00:00:00 +0000" ++ CRLF.
Definition z_text : bytes := bs " " ++ DQ ++ bs "@c" ++ tail_text.
Definition w_text (k : nat) : bytes := bs "=?utf-8?q?" ++ run k ++ bs "?=" ++ z_text.
Definition open_text : bytes := bs "=?utf-8?q?@b," ++ DQ ++ bs "?=".
Fixpoint t_text (k m : nat) : bytes :=
  match m with
  | 0 => open_text ++ bs " " ++ w_text k
  | S m => open_text ++ bs " " ++ DQ ++ bs "@c," ++ t_text k m
  end.
Definition v_text (k m : nat) : bytes := DQ ++ bs "@c," ++ t_text k m.
Definition cubic_mail (k m : nat) : bytes := bs "From:" ++ t_text k m.
Notation E := env_mime.
Notation pw := (m_phrase_word E).

Lemma open_word : forall t, exists a, fst (pw (open_text ++ bs " " ++ t)) = Ok (bs " " ++ t, a).
Proof. intros t. eexists. vm_compute. reflexivity. Qed.
Lemma quoted_word : forall t, exists a, fst (pw (DQ ++ bs "@c," ++ bs "=?utf-8?q?@b," ++ DQ ++ bs "?= " ++ t)) = Ok (bs "?= " ++ t, a).
Proof. intros t. eexists. vm_compute. reflexivity. Qed.
Lemma blank_quoted_word : forall t, exists a, fst (pw (bs " " ++ DQ ++ bs "@c," ++ bs "=?utf-8?q?@b," ++ DQ ++ bs "?= " ++ t)) = Ok (bs "?= " ++ t, a).
Proof. intros t. eexists. vm_compute. reflexivity. Qed.
Lemma mark_quote : forall t, exists a, fst (pw (bs "?= " ++ DQ ++ t)) = Ok (DQ ++ t, a).
Proof. intros t. eexists. vm_compute. reflexivity. Qed.
Lemma mark_word : forall t, exists a, fst (pw (bs "?= " ++ bs "=" ++ t)) = Ok (bs "=" ++ t, a).
Proof. intros t. eexists. vm_compute. reflexivity. Qed.
Lemma no_word : exists e, fst (pw z_text) = Err e.
Proof. eexists. vm_compute. reflexivity. Qed.

(* ---- the long encoded word ---- *)
Lemma run_plain : forall k, Forall (fun c => In c (bs "=41")) (run k).
Proof. induction k as [|k IH]; [constructor|]. unfold run in *. rewrite times_S. apply Forall_app. split; [|exact IH]. apply Forall_forall. auto. Qed.
Lemma run_is : forall (f : byte -> bool) k, forallb f (bs "=41") = true -> Forall (fun c => f c = true) (run k).
Proof. intros f k H. eapply Forall_impl; [|apply run_plain]. cbn beta. intros c Hc. exact (proj1 (forallb_forall _ _) H c Hc). Qed.
Lemma span_here : forall f (a : bytes) c (r : bytes), Forall (fun c => f c = true) a -> f c = false -> span f (a ++ c :: r) = (a, c :: r).
Proof. intros f a c r H Hc. induction H as [|x a Hx H IH]; cbn; [now rewrite Hc|]. now rewrite Hx, IH. Qed.
Lemma take1_here : forall f x (a : bytes) c (r : bytes), ascii (x :: a) -> Forall (fun c => f c = true) (x :: a) -> f c = false -> t_take_while1 f ((x :: a) ++ c :: r) = (Ok (c :: r, x :: a), S (length (x :: a))).
Proof.
  intros f x a c r A H Hc. unfold t_take_while1, t_step, take_while1. pose proof (span_here f (x :: a) c r H Hc) as S. cbn [app] in S |- *. unfold bytes, byte in *. rewrite S. clear S. inversion H as [|? ? Hx _]; subst. rewrite Hx. cbn [negb]. unfold str_unchecked. rewrite (ascii_utf8 _ A). reflexivity.
Qed.
Lemma checked_ascii : forall l, forallb (fun c => (c <? 128)%N) l = true -> ascii l.
Proof. intros l H. unfold ascii. apply Forall_forall. intros c Hc. pose proof (proj1 (forallb_forall _ _) H c Hc) as X. cbn beta in X. unfold ascii_byte. lia. Qed.
Lemma run_ascii : forall k, ascii (run k).
Proof. intros k. pose proof (run_is (fun c => (c <? 128)%N) k eq_refl) as H. unfold ascii. eapply Forall_impl; [|exact H]. cbn beta. intros c Hc. unfold ascii_byte. lia. Qed.
Lemma run_S : forall k, run (S k) = 61%N :: 52%N :: 49%N :: run k.
Proof. reflexivity. Qed.
Lemma as_utf8 : forall k, utf8_valid (repeat 65%N k) = true.
Proof. intros k. apply ascii_utf8. unfold ascii. apply Forall_forall. intros x H. apply repeat_spec in H. subst x. unfold ascii_byte. lia. Qed.
Lemma long_word : forall k, exists a, fst (m_encoded_word E (w_text (S k))) = Ok (z_text, a) /\ S k * S k <= snd (m_encoded_word E (w_text (S k))).
Proof.
  intros k. unfold w_text, m_encoded_word. set (R := run (S k)). set (t := R ++ bs "?=" ++ z_text).
  assert (A1 : t_tag (bs "=?") "TAG ERROR: An encoded word must start with `=?`." (bs "=?utf-8?q?" ++ t) = (Ok (bs "utf-8?q?" ++ t, tt), 3)) by reflexivity. rewrite A1. clear A1. cbn [t_bind].
  assert (A2 : exists n, m_ew_charset (bs "utf-8?q?" ++ t) = (Ok (bs "?q?" ++ t, bs "utf-8"), n)) by (eexists; vm_compute; reflexivity). destruct A2 as [n1 A2]. rewrite A2. clear A2. cbn [t_bind].
  assert (A3 : exists n, t_optional (t_pair_p (t_tag (bs "*") "TAG ERROR: In an encoded word with encoding, a charset must be followed by a `*`.") m_ew_encoding) (bs "?q?" ++ t) = (Ok (bs "?q?" ++ t, None), n)) by (eexists; vm_compute; reflexivity). destruct A3 as [n2 A3]. rewrite A3. clear A3. cbn [t_bind].
  assert (A4 : t_tag (bs "?") "TAG ERROR: In an encoded word, a language must be followed by a `?`." (bs "?q?" ++ t) = (Ok (bs "q?" ++ t, tt), 2)) by reflexivity. rewrite A4. clear A4. cbn [t_bind].
  assert (A5 : exists n, m_ew_encoding (bs "q?" ++ t) = (Ok (bs "?" ++ t, bs "q"), n)) by (eexists; vm_compute; reflexivity). destruct A5 as [n3 A5]. rewrite A5. clear A5. cbn [t_bind].
  assert (A6 : t_tag (bs "?") "TAG ERROR: In an encoded word, a encoding must be followed by a `?`." (bs "?" ++ t) = (Ok (t, tt), 2)) by (unfold t; subst R; rewrite run_S; reflexivity). rewrite A6. clear A6. cbn [t_bind].
  assert (A7 : m_encoded_text t = (Ok (bs "?=" ++ z_text, R), S (length R))). { unfold t, m_encoded_text. subst R. rewrite run_S. refine (take1_here _ _ _ 63%N (61%N :: z_text) _ _ eq_refl); rewrite <- run_S; [apply run_ascii|apply run_is; reflexivity]. }
  rewrite A7. clear A7. cbn [t_bind].
  assert (A8 : t_tag (bs "?=") "TAG ERROR: An encoded word must end with `?=`." (bs "?=" ++ z_text) = (Ok (z_text, tt), 3)) by reflexivity. rewrite A8. clear A8. cbn [t_bind t_step fst snd].
  assert (A9 : bytes_eqb (bs "q") (bs "b") = false /\ bytes_eqb (bs "q") (bs "q") = true) by (split; reflexivity). destruct A9 as [A9 A10]. rewrite A9, A10. clear A9 A10.
  destruct (decode_header_qp_low E (S k)) as [D1 D2]. fold (run (S k)) in D1, D2. fold R in D1, D2. pose proof (same_header_qp_loop E (S (length R)) R 0) as D3. unfold same in D3. change (fst (t_decode_header_qp E R) = decode_header_qp E R) in D3. rewrite <- D3 in D1. clear D3. destruct (t_decode_header_qp E R) as [x n4]. cbn [fst snd] in D1, D2. subst x. cbn [t_bind fst snd].
  assert (A11 : find_charset (bs "utf-8") = Some Utf8OrAscii) by reflexivity. rewrite A11. clear A11. unfold m_decode_charset, decode_charset, str_checked, t_step. rewrite as_utf8. cbn [t_bind t_ok fst snd]. eexists. split; [reflexivity|]. lia.
Qed.
Lemma lead_none : forall t, exists n, t_optional t_fws (bs "=" ++ t) = (Ok (bs "=" ++ t, None), n).
Proof. intros t. eexists. vm_compute. reflexivity. Qed.
Lemma lead_blank : forall t, exists n, t_optional t_fws (bs " =" ++ t) = (Ok (bs "=" ++ t, Some (bs " ")), n).
Proof. intros t. eexists. vm_compute. reflexivity. Qed.
Lemma w_word : forall k, exists a, fst (pw (w_text (S k))) = Ok (z_text, a) /\ S k * S k <= snd (pw (w_text (S k))).
Proof.
  intros k. destruct (long_word k) as (a & H1 & H2). unfold m_phrase_word. cbn [t_match_parsers]. destruct (lead_none (bs "?utf-8?q?" ++ run (S k) ++ bs "?=" ++ z_text)) as [n L]. change (bs "=" ++ bs "?utf-8?q?" ++ run (S k) ++ bs "?=" ++ z_text) with (w_text (S k)) in L. rewrite L. cbn [t_bind].
  destruct (m_encoded_word E (w_text (S k))) as [x m]. cbn [fst snd] in H1, H2. subst x. cbn [t_attempt t_bind t_ok fst snd]. exists a. split; [reflexivity|lia].
Qed.
Lemma blank_w_word : forall k, exists a, fst (pw (bs " " ++ w_text (S k))) = Ok (z_text, a) /\ S k * S k <= snd (pw (bs " " ++ w_text (S k))).
Proof.
  intros k. destruct (long_word k) as (a & H1 & H2). unfold m_phrase_word. cbn [t_match_parsers]. destruct (lead_blank (bs "?utf-8?q?" ++ run (S k) ++ bs "?=" ++ z_text)) as [n L]. change (bs " =" ++ bs "?utf-8?q?" ++ run (S k) ++ bs "?=" ++ z_text) with (bs " " ++ w_text (S k)) in L.
  change (bs "=" ++ bs "?utf-8?q?" ++ run (S k) ++ bs "?=" ++ z_text) with (w_text (S k)) in L. rewrite L. cbn [t_bind].
  destruct (m_encoded_word E (w_text (S k))) as [x m]. cbn [fst snd] in H1, H2. subst x. cbn [t_attempt t_bind t_ok fst snd]. exists a. split; [reflexivity|lia].
Qed.

(* ---- a phrase from any of the addresses to the end ---- *)
(* what follows the next quote *)
Definition x_text (k m : nat) : bytes := match m with 0 => w_text k | S m => v_text k m end.
Lemma t_text_eq : forall k m, t_text k m = open_text ++ bs " " ++ x_text k m.
Proof. intros k [|m]; reflexivity. Qed.
Lemma w_chain : forall k, chain pw 1 (S k * S k + 0) (w_text (S k)) z_text.
Proof. intros k. destruct (w_word k) as (a & H1 & H2). eapply chain_one; [exact H1|exact H2|]. unfold w_text. rewrite !app_length. cbn. lia. Qed.
Lemma mark_chain : forall k m, chain pw 1 0 (bs "?= " ++ x_text k m) (x_text k m).
Proof.
  intros k m. assert (H : exists a, fst (pw (bs "?= " ++ x_text k m)) = Ok (x_text k m, a)) by (destruct m; [apply mark_word|apply mark_quote]). destruct H as [a H]. change 0 with (0 + 0). eapply chain_one; [exact H|lia|]. rewrite app_length. cbn. lia.
Qed.
Lemma v_chain : forall k m, exists n, chain pw n (S k * S k + 0) (v_text (S k) m) z_text.
Proof.
  intros k m. assert (Q : forall m, chain pw 1 0 (v_text (S k) m) (bs "?= " ++ x_text (S k) m)).
  { intros m0. destruct (quoted_word (x_text (S k) m0)) as [a H]. unfold v_text. rewrite t_text_eq. change 0 with (0 + 0). eapply chain_one; [exact H|lia|]. rewrite !app_length. cbn. lia. }
  induction m as [|m [n IH]]; eexists.
  - change (S k * S k + 0) with (0 + (0 + (S k * S k + 0))). eapply chain_app; [apply Q|]. eapply chain_app; [apply mark_chain|]. apply w_chain.
  - change (S k * S k + 0) with (0 + (0 + (S k * S k + 0))). eapply chain_app; [apply Q|]. eapply chain_app; [apply mark_chain|]. exact IH.
Qed.
Lemma blank_chain : forall k m, exists n, chain pw n (S k * S k + 0) (bs " " ++ x_text (S k) m) z_text.
Proof.
  intros k [|m]; cbn [x_text].
  - destruct (blank_w_word k) as (a & H1 & H2). eexists. eapply chain_one; [exact H1|exact H2|]. rewrite app_length. unfold w_text. rewrite !app_length. cbn. lia.
  - assert (Q : chain pw 1 0 (bs " " ++ v_text (S k) m) (bs "?= " ++ x_text (S k) m)).
    { destruct (blank_quoted_word (x_text (S k) m)) as [a H]. unfold v_text. rewrite t_text_eq. change 0 with (0 + 0). eapply chain_one; [exact H|lia|]. rewrite !app_length. cbn. lia. }
    destruct m as [|m].
    + eexists. change (S k * S k + 0) with (0 + (0 + (S k * S k + 0))). eapply chain_app; [apply Q|]. eapply chain_app; [apply mark_chain|]. apply w_chain.
    + destruct (v_chain k m) as [n H]. eexists. change (S k * S k + 0) with (0 + (0 + (S k * S k + 0))). eapply chain_app; [apply Q|]. eapply chain_app; [apply mark_chain|]. exact H.
Qed.
Lemma phrase_low : forall k m, exists l, fst (m_phrase E (t_text (S k) m)) = Ok (z_text, l) /\ S k * S k <= snd (m_phrase E (t_text (S k) m)).
Proof.
  intros k m. rewrite t_text_eq. destruct (open_word (x_text (S k) m)) as [a H]. destruct (blank_chain k m) as [n C]. destruct no_word as [e HE]. destruct (chain_many _ _ _ _ _ _ e C HE) as [(l & _ & L) M].
  unfold m_phrase, t_many1. destruct (pw (open_text ++ bs " " ++ x_text (S k) m)) as [x c]. cbn [fst] in H. subst x. cbn [t_bind]. destruct (t_many pw (bs " " ++ x_text (S k) m)) as [x d]. cbn [fst snd] in *. subst x. cbn [t_bind t_ok fst snd]. exists (a :: l). split; [reflexivity|lia].
Qed.

(* ---- the addresses ---- *)
Definition comma_text : bytes := bs "," ++ DQ ++ bs "?= ".
Lemma spec_open : forall t, exists a n, t_addr_spec E (open_text ++ bs " " ++ t) = (Ok (comma_text ++ t, a), n).
Proof. intros t. eexists. eexists. vm_compute. reflexivity. Qed.
Lemma no_angle : exists e n, t_angle_addr E z_text = (Err e, n).
Proof. eexists. eexists. vm_compute. reflexivity. Qed.
Lemma mailbox_low : forall k m, exists a, fst (m_mailbox E (t_text (S k) m)) = Ok (comma_text ++ x_text (S k) m, a) /\ S k * S k <= snd (m_mailbox E (t_text (S k) m)).
Proof.
  intros k m. destruct (phrase_low k m) as (l & P1 & P2). destruct no_angle as (e & n & A). destruct (spec_open (x_text (S k) m)) as (b & n' & B). rewrite <- t_text_eq in B.
  unfold m_mailbox. cbn [t_match_parsers]. unfold m_name_addr, t_optional. destruct (m_phrase E (t_text (S k) m)) as [x c]. cbn [fst snd] in P1, P2. subst x. cbn [t_attempt t_bind t_ok fst snd]. rewrite A. cbn [t_attempt t_bind fst snd].
  unfold t_pmap at 1 2. rewrite B. cbn [t_attempt t_bind t_ok fst snd]. eexists. split; [reflexivity|lia].
Qed.
Lemma next_mailbox : forall t, exists a, fst (t_prefixed (m_mailbox E) (bs ",") (comma_text ++ DQ ++ bs "@c," ++ t)) = Ok (bs "," ++ t, a).
Proof. intros t. eexists. vm_compute. reflexivity. Qed.
(* the last address, whose local part is a quoted string with the long word in it *)
Definition end_text : bytes := bs "@c" ++ tail_text.
Lemma step_one : forall t, exists a, fst (t_quoted_string_step (bs "?= =" ++ t)) = Ok (bs " =" ++ t, a).
Proof. intros t. eexists. vm_compute. reflexivity. Qed.
Lemma step_two : forall k, exists a, fst (t_quoted_string_step (bs " " ++ w_text k)) = Ok (z_text, a).
Proof.
  intros k. unfold t_quoted_string_step. assert (F : exists n, t_fws (bs " " ++ w_text k) = (Ok (w_text k, bs " "), n)) by (eexists; vm_compute; reflexivity). destruct F as [n F]. rewrite F. cbn [t_attempt t_bind t_ok fst snd].
  set (a := bs "?utf-8?q?" ++ run k ++ bs "?="). assert (W : w_text k = (61%N :: a) ++ 32%N :: DQ ++ end_text) by (unfold a, w_text; rewrite !app_comm_cons, <- !app_assoc; reflexivity). rewrite W.
  rewrite take1_here; [cbn [t_attempt t_bind t_ok t_concat t_step fst snd]; eexists; reflexivity| | |reflexivity].
  - change (ascii ((bs "=?utf-8?q?") ++ run k ++ bs "?=")). apply Forall_app. split; [apply checked_ascii; reflexivity|]. apply Forall_app. split; [apply run_ascii|apply checked_ascii; reflexivity].
  - constructor; [reflexivity|]. unfold a. apply Forall_app. split; [repeat constructor|]. apply Forall_app. split; [apply run_is; reflexivity|repeat constructor].
Qed.
Lemma step_three : exists e, fst (t_quoted_string_step z_text) = Err e.
Proof. eexists. vm_compute. reflexivity. Qed.
Lemma skip_quote : forall t, exists n, t_skip_cfws (DQ ++ t) = (Ok (DQ ++ t), n).
Proof. intros t. eexists. vm_compute. reflexivity. Qed.
Lemma quoted_long : forall k, exists a n, t_quoted_string (DQ ++ bs "?= " ++ w_text k) = (Ok (end_text, a), n).
Proof.
  intros k. assert (C : exists l, fst (t_many t_quoted_string_step (bs "?= " ++ w_text k)) = Ok (z_text, l)).
  { destruct (step_one (bs "?utf-8?q?" ++ run k ++ bs "?=" ++ z_text)) as [a1 S1]. destruct (step_two k) as [a2 S2]. destruct step_three as [e S3].
    assert (C : chain t_quoted_string_step 2 (0 + (0 + 0)) (bs "?= " ++ w_text k) z_text).
    { eapply chain_cons; [exact S1|lia|unfold w_text; rewrite !app_length; cbn; lia|]. eapply chain_one; [exact S2|lia|]. rewrite app_length. unfold w_text. rewrite !app_length. cbn. lia. }
    destruct (chain_many _ _ _ _ _ _ e C S3) as [(l & _ & L) _]. exists l. exact L. }
  destruct C as [l C]. unfold t_quoted_string. destruct (skip_quote (bs "?= " ++ w_text k)) as [n1 S1]. rewrite S1. cbn [t_bind fst snd].
  assert (B : t_starts_with (DQ ++ bs "?= " ++ w_text k) [DQUOTE] = (Ok true, 2)) by reflexivity. rewrite B. clear B. cbn [t_bind fst snd].
  assert (B : index_from (DQ ++ bs "?= " ++ w_text k) 1 = Ok (bs "?= " ++ w_text k)) by reflexivity. rewrite B. clear B. cbn [t_bind t_step fst snd].
  unfold t_collect_many. destruct (t_many t_quoted_string_step (bs "?= " ++ w_text k)) as [x n2]. cbn [fst] in C. subst x. cbn [t_bind t_step fst snd].
  assert (B : exists n, t_fws z_text = (Ok (DQ ++ end_text, bs " "), n)) by (eexists; vm_compute; reflexivity). destruct B as [n3 B]. rewrite B. clear B. cbn [t_attempt t_bind t_concat t_step t_ok fst snd].
  assert (B : t_starts_with (DQ ++ end_text) [DQUOTE] = (Ok true, 2)) by reflexivity. rewrite B. clear B. cbn [t_bind fst snd].
  assert (B : index_from (DQ ++ end_text) 1 = Ok end_text) by reflexivity. rewrite B. clear B. cbn [t_bind t_step fst snd].
  assert (B : exists n, t_skip_cfws end_text = (Ok end_text, n)) by (eexists; vm_compute; reflexivity). destruct B as [n4 B]. rewrite B. clear B. cbn [t_bind t_ok fst snd]. eexists. eexists. reflexivity.
Qed.
Definition quote_text (t : bytes) : bytes := DQ ++ bs "?" ++ t.
Lemma quote_no_ew : forall t, exists e n, (let+ (i, _) := t_optional t_fws (quote_text t) in m_encoded_word E i) = (Err e, n).
Proof. intros t. eexists. eexists. vm_compute. reflexivity. Qed.
Lemma quote_no_atom : forall t, exists e n, t_atom (quote_text t) = (Err e, n).
Proof. intros t. eexists. eexists. vm_compute. reflexivity. Qed.
Lemma quote_no_dot : forall t, exists e n, t_dot_atom E (quote_text t) = (Err e, n).
Proof. intros t. eexists. eexists. vm_compute. reflexivity. Qed.
Lemma end_no_words : exists n, t_many pw end_text = (Ok (end_text, []), n).
Proof. eexists. vm_compute. reflexivity. Qed.
Lemma end_no_angle : exists e n, t_angle_addr E end_text = (Err e, n).
Proof. eexists. eexists. vm_compute. reflexivity. Qed.
Lemma end_at : exists n, t_tag (bs "@") "TAG ERROR: An address local part must be followed by a `@`." end_text = (Ok (bs "c" ++ tail_text, tt), n).
Proof. eexists. vm_compute. reflexivity. Qed.
Lemma end_domain : exists d n, t_domain E (bs "c" ++ tail_text) = (Ok (tail_text, d), n).
Proof. eexists. eexists. vm_compute. reflexivity. Qed.
Lemma quoted_mailbox : forall t q n, t_quoted_string (quote_text t) = (Ok (end_text, q), n) -> exists a, fst (m_mailbox E (quote_text t)) = Ok (tail_text, a).
Proof.
  intros t q n Q. destruct (quote_no_ew t) as (e1 & n1 & H1). destruct (quote_no_atom t) as (e2 & n2 & H2). destruct (quote_no_dot t) as (e3 & n3 & H3). generalize dependent (quote_text t). intros i Q H1 H2 H3.
  assert (P : exists m, pw i = (Ok (end_text, q), m)).
  { unfold m_phrase_word. cbn [t_match_parsers]. rewrite H1. cbn [t_attempt]. unfold t_word. cbn [t_match_parsers]. rewrite H2. cbn [t_attempt]. rewrite Q. cbn [t_attempt t_ok fst snd]. eexists. reflexivity. }
  destruct P as [m P]. destruct end_no_words as [n4 H4]. destruct end_no_angle as (e5 & n5 & H5). destruct end_at as [n6 H6]. destruct end_domain as (d & n7 & H7).
  assert (F : exists l n, m_phrase E i = (Ok (end_text, l), n)).
  { unfold m_phrase, t_many1. rewrite P. cbn [t_bind]. rewrite H4. cbn [t_bind t_ok fst snd]. eexists. eexists. reflexivity. }
  destruct F as (l & n8 & F). unfold m_mailbox. cbn [t_match_parsers]. unfold m_name_addr, t_optional. rewrite F. cbn [t_attempt t_bind t_ok fst snd]. rewrite H5. cbn [t_attempt t_bind fst snd].
  unfold t_pmap at 1. unfold t_addr_spec, t_local_part. cbn [t_match_parsers]. rewrite H3. cbn [t_attempt]. rewrite Q. cbn [t_attempt t_bind t_ok fst snd]. rewrite H6. cbn [t_bind fst snd]. rewrite H7. cbn [t_attempt t_bind t_ok fst snd]. eexists. reflexivity.
Qed.
Lemma prefixed_here : forall A (p : timed_parser A) c t, t_prefixed p (bs ",") (bs "," ++ c :: t) = (fst (p (c :: t)), 2 + (0 + snd (p (c :: t)))).
Proof. reflexivity. Qed.
Lemma prefixed_fst : forall A (p : timed_parser A) c t, fst (t_prefixed p (bs ",") (bs "," ++ c :: t)) = fst (p (c :: t)).
Proof. reflexivity. Qed.
Lemma last_mailbox : forall k, exists a, fst (t_prefixed (m_mailbox E) (bs ",") (comma_text ++ w_text k)) = Ok (tail_text, a).
Proof.
  intros k. destruct (quoted_long k) as (q & n & Q). assert (D : DQ ++ bs "?= " ++ w_text k = quote_text (bs "= " ++ w_text k)) by reflexivity. rewrite D in Q. destruct (quoted_mailbox _ _ _ Q) as [a H]. exists a.
  assert (C : comma_text ++ w_text k = bs "," ++ 34%N :: (bs "?= " ++ w_text k)) by reflexivity. rewrite C, prefixed_fst. clear C D. assert (D : 34%N :: (bs "?= " ++ w_text k) = quote_text (bs "= " ++ w_text k)) by reflexivity. rewrite D. exact H.
Qed.
(* the list *)
Lemma list_chain : forall k m, exists n, 2 * m < n /\ chain (t_prefixed (m_mailbox E) (bs ",")) n (m * (S k * S k)) (comma_text ++ x_text (S k) m) tail_text.
Proof.
  intros k. induction m as [|m (n & N & IH)].
  - destruct (last_mailbox (S k)) as [a H]. exists 1. split; [lia|]. change (0 * (S k * S k)) with (0 + 0). eapply chain_one; [exact H|lia|]. cbn [x_text]. rewrite app_length. unfold w_text, z_text. rewrite !app_length. cbn. lia.
  - exists (S (S n)). split; [lia|]. change (S m * (S k * S k)) with (0 + (S k * S k + m * (S k * S k))). destruct (next_mailbox (t_text (S k) m)) as [a H]. eapply chain_cons; [exact H|lia|cbn [x_text]; unfold v_text; rewrite !app_length; cbn; lia|].
    destruct (mailbox_low k m) as (b & M1 & M2). assert (P : t_prefixed (m_mailbox E) (bs ",") (bs "," ++ t_text (S k) m) = (fst (m_mailbox E (t_text (S k) m)), 2 + (0 + snd (m_mailbox E (t_text (S k) m))))) by (rewrite t_text_eq; apply prefixed_here).
    eapply chain_cons; [rewrite P; exact M1|rewrite P; cbn [snd]; lia| |exact IH]. rewrite t_text_eq, !app_length. cbn. lia.
Qed.
Lemma from_name : forall c t, exists n, t_tag_no_case E (bs "From:") (bs "fROM:") "TAG NO CASE ERROR: Header name (From) does not match." (bs "From:" ++ c :: t) = (Ok (c :: t, tt), n).
Proof. intros c t. eexists. vm_compute. reflexivity. Qed.
Lemma t_text_head : forall k m, exists t, t_text k m = 61%N :: t.
Proof. intros k m. rewrite t_text_eq. eexists. reflexivity. Qed.
Lemma tail_no_mailbox : exists e, fst (t_prefixed (m_mailbox E) (bs ",") tail_text) = Err e.
Proof. eexists. vm_compute. reflexivity. Qed.
Lemma tail_end : exists n, t_tag CRLF "TAG ERROR: A header (`From` in this case) must end with a CRLF sequence." tail_text = (Ok (skipn 2 tail_text, tt), n).
Proof. eexists. vm_compute. reflexivity. Qed.
Lemma box_list_low : forall F t i a j l, fst (m_mailbox F t) = Ok (i, a) -> fst (t_many (t_prefixed (m_mailbox F) (bs ",")) i) = Ok (j, l) -> fst (m_mailbox_list F t) = Ok (j, a :: l) /\ snd (t_many (t_prefixed (m_mailbox F) (bs ",")) i) <= snd (m_mailbox_list F t).
Proof. intros F t i a j l H1 H2. unfold m_mailbox_list. destruct (m_mailbox F t) as [x n]. cbn [fst] in H1. subst x. cbn [t_bind]. destruct (t_many _ i) as [x w]. cbn [fst] in H2. subst x. cbn. split; [reflexivity|lia]. Qed.
Lemma from_header_low : forall F i t j x r n n', t_tag_no_case F (bs "From:") (bs "fROM:") "TAG NO CASE ERROR: Header name (From) does not match." i = (Ok (t, tt), n) -> fst (m_mailbox_list F t) = Ok (j, x) ->
  t_tag CRLF "TAG ERROR: A header (`From` in this case) must end with a CRLF sequence." j = (Ok (r, tt), n') -> fst (m_field_from F i) = Ok (r, x) /\ snd (m_mailbox_list F t) <= snd (m_field_from F i).
Proof. intros F i t j x r n n' H1 H2 H3. unfold m_field_from, t_header. rewrite H1. cbn [t_bind]. destruct (m_mailbox_list F t) as [y w]. cbn [fst] in H2. subst y. cbn [t_bind fst snd]. rewrite H3. cbn [t_bind t_ok fst snd]. split; [reflexivity|lia]. Qed.
Lemma cubic_name : forall k m, exists n, t_tag_no_case E (bs "From:") (bs "fROM:") "TAG NO CASE ERROR: Header name (From) does not match." (cubic_mail k m) = (Ok (t_text k m, tt), n).
Proof. intros k m. unfold cubic_mail. destruct (t_text_head k m) as [t ->]. apply from_name. Qed.
Lemma from_low : forall k m, exists l, 1 < length l /\ fst (m_field_from E (cubic_mail (S k) (S m))) = Ok (skipn 2 tail_text, l) /\ S m * (S k * S k) <= snd (m_field_from E (cubic_mail (S k) (S m))).
Proof.
  intros k m. destruct (mailbox_low k (S m)) as (a & M1 & _). destruct (list_chain k (S m)) as (j & J & C). destruct tail_no_mailbox as [e B]. destruct (chain_many _ _ _ _ _ _ e C B) as [(l & L1 & L2) L3]. clear B.
  destruct (box_list_low _ _ _ _ _ _ M1 L2) as [F1 F2]. destruct (cubic_name (S k) (S m)) as [n B]. destruct tail_end as [n2 D]. destruct (from_header_low _ _ _ _ _ _ _ _ B F1 D) as [G1 G2].
  exists (a :: l). split; [cbn [length]; lia|]. split; [exact G1|]. exact (Nat.le_trans _ _ _ L3 (Nat.le_trans _ _ _ F2 G2)).
Qed.
(* ---- the mail ---- *)
Lemma any_from_low : forall F i r l e n, f_date F = true -> f_from F = true -> t_field_date F i = (Err e, n) -> fst (m_field_from F i) = Ok (r, l) -> fst (m_any_field F i) = Ok (r, FFrom l) /\ snd (m_field_from F i) <= snd (m_any_field F i).
Proof.
  intros F i r l e n D R H1 H2. unfold m_any_field, m_field_parsers. rewrite D, R. cbn [t_cfg app t_match_parsers]. unfold t_pmap. rewrite H1. cbn [t_bind t_attempt]. destruct (m_field_from F i) as [x w]. cbn [fst] in H2. subst x. cbn. split; [reflexivity|lia].
Qed.
Lemma no_date : forall t, exists e n, t_field_date E (bs "From:" ++ open_text ++ t) = (Err e, n).
Proof. intros t. eexists. eexists. vm_compute. reflexivity. Qed.
Lemma no_trace : forall t, exists e n, m_trace_block E (bs "From:" ++ open_text ++ t) = (Err e, n).
Proof. intros t. eexists. eexists. vm_compute. reflexivity. Qed.
Lemma last_fields : exists s d n, forall f, t_many_fuel (4 + f) (m_any_field E) (skipn 2 tail_text) = (Ok ([], [FSender s; FDate d]), n).
Proof. eexists. eexists. eexists. intros f. vm_compute. reflexivity. Qed.
Lemma many_turn : forall A f (p : timed_parser A) i, t_many_fuel (S f) p i = (let+ _ := t_step 1 (Ok tt) in t_attempt (p i) (fun '(i', a) => let+ (r, l) := t_many_fuel f p i' in t_ok (r, a :: l)) (t_ok (i, []))).
Proof. reflexivity. Qed.
Lemma fields_low : forall F i r l fs n e n' e' w f, f_date F = true -> f_from F = true -> f_trace F = true -> m_trace_block F i = (Err e, n) -> t_field_date F i = (Err e', n') -> fst (m_field_from F i) = Ok (r, l) ->
  length i = 4 + f -> t_many_fuel (4 + f) (m_any_field F) r = (Ok ([], fs), w) -> fst (m_fields F i) = Ok ([], FFrom l :: fs) /\ snd (m_field_from F i) <= snd (m_fields F i).
Proof.
  intros F i r l fs n e n' e' w f HD HF HT H1 H2 H3 L H4. destruct (any_from_low F i r l e' n' HD HF H2 H3) as [A1 A2]. unfold m_fields. rewrite HT. unfold t_many. rewrite L.
  assert (T : exists v, t_many_fuel (S (4 + f)) (m_trace_block F) i = (Ok (i, []), v)) by (rewrite many_turn, H1; eexists; reflexivity). destruct T as [v T]. rewrite T. cbn [t_bind]. rewrite L, many_turn.
  destruct (m_any_field F i) as [x u]. cbn [fst snd] in A1, A2. subst x. cbn [t_bind t_step t_attempt]. rewrite H4. cbn [t_bind t_ok fst snd]. split; [reflexivity|]. clear - A2. lia.
Qed.
Lemma finish_low : forall l s d, 1 < length l -> exists m, (let+ a := t_set_fields acc0 [FFrom l; FSender s; FDate d] in m_finish E a None) = (Ok m, snd (let+ a := t_set_fields acc0 [FFrom l; FSender s; FDate d] in m_finish E a None)).
Proof. intros l s d H. destruct l as [|x [|y l]]; cbn [length] in H; [lia..|]. eexists. vm_compute. reflexivity. Qed.
Lemma parse_low : forall F i fs m n, fst (m_fields F i) = Ok ([], fs) -> (let+ a := t_set_fields acc0 fs in m_finish F a None) = (Ok m, n) -> fst (m_parse F i) = Ok m /\ snd (m_fields F i) <= snd (m_parse F i).
Proof.
  intros F i fs m n H1 H2. unfold m_parse, m_parse_message. destruct (m_fields F i) as [x w]. cbn [fst] in H1. subst x. cbn [t_bind m_mime_body mime_body t_step t_ok fst snd]. rewrite H2. cbn [fst snd]. split; [reflexivity|lia].
Qed.
Theorem cubic_low : forall k m, exists r, parse E (cubic_mail (S k) (S m)) = Ok r /\ S m * (S k * S k) <= snd (m_parse E (cubic_mail (S k) (S m))).
Proof.
  intros k m. destruct (from_low k m) as (l & L1 & F1 & F2). destruct last_fields as (s & d & n & LF). destruct (no_date (bs " " ++ x_text (S k) (S m))) as (e1 & n1 & H1). destruct (no_trace (bs " " ++ x_text (S k) (S m))) as (e2 & n2 & H2). rewrite <- t_text_eq in H1, H2. fold (cubic_mail (S k) (S m)) in H1, H2.
  assert (Len : exists f, length (cubic_mail (S k) (S m)) = 4 + f) by (unfold cubic_mail; rewrite app_length; exists (1 + length (t_text (S k) (S m))); cbn; lia). destruct Len as [f Len].
  destruct (fields_low E _ _ _ _ _ _ _ _ _ f eq_refl eq_refl eq_refl H2 H1 F1 Len (LF f)) as [G1 G2]. destruct (finish_low l s d L1) as [r R]. destruct (parse_low E _ _ _ _ G1 R) as [P1 P2]. exists r. split; [rewrite <- (m_parse_erases E eq_refl); exact P1|]. exact (Nat.le_trans _ _ _ F2 (Nat.le_trans _ _ _ G2 P2)).
Qed.
Lemma t_text_length : forall k m, length (t_text k m) = 21 * m + 3 * k + 86.
Proof. intros k. induction m as [|m IH]; cbn [t_text]; [|rewrite !app_length, IH; cbn; lia]. unfold w_text, run. rewrite !app_length, times_length. cbn. lia. Qed.
Lemma far : forall c K x, x = S (c * c * K) -> K * ((c * x) * (c * x)) < x * (x * x).
Proof. intros c K x ->. set (q := c * c * K). assert (K * ((c * S q) * (c * S q)) = q * (S q * S q)) as -> by (unfold q; ring). nia. Qed.
Theorem mail_beyond : forall K, exists d m, parse E d = Ok m /\ K * (S (length d) * S (length d)) < snd (m_parse E d).
Proof.
  intros K. set (n := 116 * 116 * K). destruct (cubic_low n n) as (r & H1 & H2). exists (cubic_mail (S n) (S n)), r. split; [exact H1|]. eapply Nat.lt_le_trans; [|exact H2]. eapply Nat.le_lt_trans; [|exact (far 116 K (S n) eq_refl)].
  apply Nat.mul_le_mono_l. assert (L : S (length (cubic_mail (S n) (S n))) <= 116 * S n) by (unfold cubic_mail; rewrite app_length, t_text_length; change (length (bs "From:")) with 5; clearbody n; lia). now apply Nat.mul_le_mono.
Qed.

(* ---- an entity ---- *)
Definition qp_header : bytes := bs "Content-Transfer-Encoding:quoted-printable" ++ CRLF.
Definition qp_part (m : nat) : bytes := qp_header ++ CRLF ++ run m.
Lemma qp_one : forall t, exists n, m_entity_header E (qp_header ++ CRLF ++ t) = (Ok (CRLF ++ t, HEncoding QuotedPrintableEnc), n).
Proof. intros t. eexists. vm_compute. reflexivity. Qed.
Lemma qp_no_more : forall m, exists e n, m_entity_header E (CRLF ++ run (10 + m)) = (Err e, n).
Proof. intros m. eexists. eexists. vm_compute. reflexivity. Qed.
Lemma header_part_low : forall F i j h n e n' r n2, m_entity_header F i = (Ok (j, h), n) -> length j < length i -> m_entity_header F j = (Err e, n') -> j <> [] -> t_tag CRLF "TAG ERROR: A MIME entity header part must be followed by a CRLF sequence." j = (Ok (r, tt), n2) ->
  fst (m_header_part F i) = Ok (length r, set_header header_acc0 h).
Proof.
  intros F i j h n e n' r n2 H1 L H2 N H3. unfold m_header_part, t_many. destruct (length i) as [|f] eqn:Q; [lia|]. rewrite many_turn, H1. cbn [t_bind t_step t_attempt]. rewrite many_turn, H2. cbn [t_bind t_step t_attempt t_ok fst snd]. destruct j as [|c j]; [contradiction|]. rewrite H3. reflexivity.
Qed.
Lemma raw_entity_low : forall F i len a v x, fst (m_header_part F i) = Ok (len, a) -> len <= length i -> skipn (length i - len) i = v -> h_type a = None -> h_encoding a = Some QuotedPrintableEnc -> decode_qp F v = Ok x ->
  exists r, fst (m_raw_entity F i) = Ok r /\ e_value r = x /\ snd (t_decode_qp F v) <= snd (m_raw_entity F i).
Proof.
  intros F i len a v x H L V T C D. unfold m_raw_entity. destruct (m_header_part F i) as [y n]. cbn [fst] in H. subst y. cbn [t_bind]. unfold usize_sub. destruct (length i <? len) eqn:Q; [lia|]. cbn [t_bind t_step fst snd]. unfold index_from. destruct (length i <? length i - len) eqn:Q'; [lia|]. cbn [t_bind t_step fst snd]. rewrite V, T, C.
  assert (G : fst (t_decode_value F v QuotedPrintableEnc) = Ok x /\ snd (t_decode_qp F v) <= snd (t_decode_value F v QuotedPrintableEnc)).
  { pose proof (same_value F v QuotedPrintableEnc) as S. unfold same in S. rewrite S. split; [unfold decode_value; exact D|]. cbn. lia. }
  unfold default_content_type. destruct (t_decode_value F v QuotedPrintableEnc) as [z w]. cbn [fst snd] in G. destruct G as [-> G]. cbn [t_bind t_ok fst snd]. eexists. split; [reflexivity|]. split; [reflexivity|]. lia.
Qed.
Theorem entity_low : forall m, exists r, raw_entity E (qp_part (10 + m)) = Ok r /\ m * m <= snd (m_raw_entity E (qp_part (10 + m))).
Proof.
  intros m. destruct (qp_one (run (10 + m))) as [n H1]. destruct (qp_no_more m) as (e & n' & H2). destruct (decode_qp_low E (10 + m)) as [D1 D2]. fold (run (10 + m)) in D1, D2.
  assert (T : exists n2, t_tag CRLF "TAG ERROR: A MIME entity header part must be followed by a CRLF sequence." (CRLF ++ run (10 + m)) = (Ok (run (10 + m), tt), n2)) by (eexists; reflexivity). destruct T as [n2 T].
  pose proof (header_part_low E _ _ _ _ _ _ _ _ H1 ltac:(rewrite !app_length; cbn; lia) H2 ltac:(discriminate) T) as P.
  destruct (raw_entity_low E _ _ _ (run (10 + m)) (repeat 65%N (10 + m)) P) as (r & R1 & _ & R2); [rewrite !app_length; lia| |reflexivity|reflexivity|exact D1|].
  - rewrite !app_length. replace (length qp_header + (length CRLF + length (run (10 + m))) - length (run (10 + m))) with (length (qp_header ++ CRLF)) by (rewrite app_length; lia). rewrite app_assoc. rewrite skipn_app, skipn_all, Nat.sub_diag. reflexivity.
  - exists r. split; [rewrite <- m_raw_entity_erases; exact R1|]. assert (m * m <= (10 + m) * (10 + m)) by nia. exact (Nat.le_trans _ _ _ H (Nat.le_trans _ _ _ D2 R2)).
Qed.
Theorem raw_entity_beyond : forall K, exists i r, raw_entity E i = Ok r /\ K * S (length i) < snd (m_raw_entity E i).
Proof.
  intros K. set (m := 80 * K + 1). destruct (entity_low m) as (r & H1 & H2). exists (qp_part (10 + m)), r. split; [exact H1|]. eapply Nat.lt_le_trans; [|exact H2]. unfold qp_part, run. rewrite !app_length, times_length. change (length qp_header) with 44. change (length CRLF) with 2. change (length (bs "=41")) with 3. unfold m. nia.
Qed.
(* a multipart with a wicked boundary *)
Theorem entity_beyond : forall F K, exists r, e_mime_type r = CMultipart /\ K * S (entity_size r) < snd (m_entity F r).
Proof.
  intros F K. destruct (split_beyond (2 * K)) as (b & i & L & H).
  exists {| e_mime_type := CMultipart; e_subtype := bs "mixed"; e_description := None; e_id := None; e_parameters := [(bs "boundary", b)]; e_disposition := None; e_value := i; e_additional_headers := [] |}. split; [reflexivity|].
  unfold entity_size. cbn [e_value e_parameters map snd list_sum fold_right]. unfold m_entity. cbn [e_mime_type e_parameters e_value e_subtype]. unfold m_parse_multipart. change (map_get [(bs "boundary", b)] (bs "boundary")) with (Some b). cbn [ok_or t_step t_bind fst snd].
  assert (X : K * S (length i + (length b + 0)) <= 2 * K * S (length i)) by nia. destruct (t_split_parts b i) as [[l|e|c] n]; cbn [t_bind t_ok fst snd] in *; [|lia..]. destruct (m_raw_entities F l) as [[y|e|c] w]; cbn [t_bind t_ok fst snd] in *; lia.
Qed.

(* ---- together ---- *)
Theorem mail_work : exists K, forall F d, env_ok F -> (forall c v, length (textcode F c v) <= 4 * length v) -> f_mime F = true -> (forall c, parse F d <> Crash c) ->
  fst (m_parse F d) = parse F d /\ snd (m_parse F d) <= K * (S (length d) * (S (length d) * S (length d))).
Proof. destruct m_parse_cubic as [K H]. exists K. intros F d H1 H2 H3 H4. split; [now apply m_parse_erases|]. exact (H F d (conj H1 H2) H3 H4). Qed.
Theorem raw_entity_work : exists K, forall F i, env_ok F -> (forall c v, length (textcode F c v) <= 4 * length v) -> (forall c, raw_entity F i <> Crash c) ->
  fst (m_raw_entity F i) = raw_entity F i /\ snd (m_raw_entity F i) <= K * (S (length i) * S (length i)).
Proof. destruct m_raw_entity_quadratic as [K H]. exists K. intros F d H1 H2 H4. split; [apply m_raw_entity_erases|]. exact (H F d (conj H1 H2) H4). Qed.
Theorem entity_work : exists K, forall F r, env_ok F -> (forall c v, length (textcode F c v) <= 4 * length v) -> (forall c, entity F r <> Crash c) ->
  fst (m_entity F r) = entity F r /\ snd (m_entity F r) <= K * (S (entity_size r) * S (entity_size r)).
Proof. destruct m_entity_quadratic as [K H]. exists K. intros F d H1 H2 H4. split; [apply m_entity_erases|]. exact (H F d (conj H1 H2) H4). Qed.
Lemma latin1_size : forall l, length (latin1_total l) <= 4 * length l.
Proof. intros l. unfold latin1_total. rewrite <- (map_length (fun b => (b mod 256)%N) l). generalize (map (fun b => (b mod 256)%N) l). intros m. induction m as [|b m IH]; [cbn; lia|]. cbn [latin1 length]. rewrite app_length. destruct (b <? 128)%N; cbn [length]; blia. Qed.

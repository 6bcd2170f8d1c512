(* C41: the trace blocks of RFC 5322 are recognised. *)
From Coq Require Import Lia ZifyBool ZifyNat ZifyN.
From Verif Require Import Base Utf8 CharSets Combinators Whitespace QuotedString Common Time Address MimeFields Fields Message Entity Email Envs
  Rfc5322 Rfc2047 Post CodecSpec RfcFields SoundBase EmailSpec SoundMessage Steps Complete CompleteFields Forward ForwardText ForwardAddr ForwardTrace
  ForwardFields ForwardMessage HeaderFacts Writers WriteFacts WriteAddr LimitFacts RegularSpec RegularFacts.
Local Open Scope N_scope.

(* ---- tokens ---- *)
Lemma atext_not : forall x, is_atext x = false -> ~ rfc_atext x.
Proof. intros x E H. apply atext_spec in H. congruence. Qed.
Lemma dot_tail_app : forall b t a u, rfc_dot_tail b t -> t <> [] -> chars rfc_atext a -> rfc_dot_tail b u -> rfc_dot_tail b (t ++ a ++ u).
Proof.
  intros b t a u H. induction H as [|a0 t Ha Hb Ht IH]; intros Hn Hc Hu; [congruence|]. rewrite <- !app_assoc. destruct t as [|y t].
  - cbn [app]. replace (46 :: a0 ++ a ++ u) with ([46] ++ (a0 ++ a) ++ u) by (now rewrite <- app_assoc). constructor; auto; [now apply Forall_app|]. destruct Hb as [Hb|Hb]; auto. right. destruct a0; [congruence|discriminate].
  - constructor; auto. apply IH; auto. discriminate.
Qed.
Lemma dot_text_app : forall b c d, rfc_dot_atom_text b c -> rfc_dot_atom_text b d -> rfc_dot_atom_text b (c ++ d).
Proof.
  intros b c d [a t Ha Ht] [a' t' Ha' Ht']. rewrite <- app_assoc. destruct t as [|y t].
  - cbn [app]. rewrite app_assoc. constructor; auto. now apply chars1_app.
  - constructor; auto. apply dot_tail_app; auto; [discriminate|apply Ha'].
Qed.
Lemma atoms_dot_text : forall b c, chars1 rfc_atext c -> rfc_dot_atom_text b c.
Proof. intros b c H. rewrite <- (app_nil_r c). constructor; auto. constructor. Qed.
(* a dot-atom without a dot is an atom *)
Lemma dotless : forall b c, rfc_dot_atom_text b c -> In 46 c \/ chars1 rfc_atext c.
Proof.
  intros b c [a t Ha Ht]. destruct (dot_tail_head _ _ Ht) as [->|[t' ->]]; [right; now rewrite app_nil_r|]. left. apply in_or_app. right. now left.
Qed.
Lemma dot_token : forall b c, rfc_dot_atom_text b c -> exists t, clear_token b c t /\ token_letters t = map inl c.
Proof. intros b c H. destruct (dotless b c H) as [Hd|Ha]; [exists (RDomain c)|exists (RWord c)]; split; try reflexivity; now constructor. Qed.
Lemma token_ends : forall b c t, clear_token b c t -> soft c -> rfc_dot_atom_text b c /\ token_letters t = map inl c.
Proof.
  assert (N : forall (q : byte) x, is_atext q = false -> q <> 46 -> ~ soft (x ++ [q])).
  { intros q x Hq H4 (a & y & E & Hy). apply app_inj_tail in E as [_ <-]. destruct Hy as [Hy| ->]; [exact (atext_not _ Hq Hy)|congruence]. }
  intros b c t H S. destruct H as [c H|x v H|x a H|c H H46|x v H]; try (split; auto; fail).
  - split; auto. now apply atoms_dot_text.
  - exfalso. revert S. change ([34] ++ x ++ [34]) with (([34] ++ x) ++ [34]). apply N; [reflexivity|discriminate].
  - exfalso. revert S. change ([60] ++ x ++ [62]) with (([60] ++ x) ++ [62]). apply N; [reflexivity|discriminate].
  - exfalso. revert S. change ([91] ++ x ++ [93]) with (([91] ++ x) ++ [93]). apply N; [reflexivity|discriminate].
Qed.
Lemma token_starts : forall b c t r y d, clear_token b c t -> c ++ r = [y] ++ d -> rfc_atext y -> rfc_dot_atom_text b c /\ token_letters t = map inl c.
Proof.
  intros b c t r y d H E Hy. destruct H as [c H|x v H|x a H|c H H46|x v H]; try (split; auto; fail).
  - split; auto. now apply atoms_dot_text.
  - injection E as <- _. apply atext_spec in Hy. discriminate.
  - injection E as <- _. apply atext_spec in Hy. discriminate.
  - injection E as <- _. apply atext_spec in Hy. discriminate.
Qed.
Lemma distinct_dec : forall c d, distinct c d \/ soft c /\ exists y b, d = [y] ++ b /\ rfc_atext y.
Proof.
  intros c d. destruct c as [|c0 c1]; [left; intros a x y b E; destruct a; discriminate|]. destruct (@exists_last _ (c0 :: c1) ltac:(discriminate)) as (a & x & ->).
  destruct d as [|y b]; [left; intros a' x' y' b' _ E; discriminate|].
  destruct (is_atext y) eqn:Ey; [|left; intros a' x' y' b' _ E [_ H]; injection E as <- _; exact (atext_not _ Ey H)].
  destruct (is_atext x || (x =? 46)) eqn:Ex.
  - right. split; [|exists y, b; split; auto; now apply atext_spec]. exists a, x. split; auto. destruct (is_atext x) eqn:E; [left; now apply atext_spec|right; lia].
  - left. intros a' x' y' b' E _ [H _]. apply app_inj_tail in E as [_ <-]. apply orb_false_iff in Ex as [E1 E2]. destruct H as [H| ->]; [exact (atext_not _ E1 H)|discriminate].
Qed.
Lemma distinct_after : forall a c d, c <> [] -> distinct c d -> distinct (a ++ c) d.
Proof.
  intros a c d Hn H a' x y b E Ed. destruct (exists_last Hn) as (c' & z & ->). rewrite app_assoc in E. apply app_inj_tail in E as [_ <-]. now apply (H c' z y b).
Qed.
Lemma clear_token_some : forall b c t, clear_token b c t -> c <> [].
Proof. intros b c t H ->. destruct (clear_token_head b [] t [] H) as [_ (y & d & X)]. discriminate. Qed.
Lemma token_split : forall b c t, bracketed_token b c t -> exists w x r t', c = w ++ x ++ r /\ rfc_oCFWS w /\ rfc_oCFWS r /\ clear_token b x t' /\ token_letters t = token_letters t'.
Proof.
  intros b c t [c' v H|c' a H|c' v H].
  - destruct H as [c0 v H|c0 v H].
    + destruct H as [l a r Hl Ha Hr]. exists l, a, r, (RWord a). repeat (split; auto). now constructor.
    + destruct H as [l x v r Hl Hx Hr]. exists l, ([34] ++ x ++ [34]), r, (RWord v). split; [now rewrite <- !app_assoc|]. repeat (split; auto). now constructor.
  - destruct H as [l x a r Hl Hx Hr]. exists l, ([60] ++ x ++ [62]), r, (RAddr a). split; [now rewrite <- !app_assoc|]. repeat (split; auto). now constructor.
  - destruct H as [c0 v H|c0 v H].
    + destruct H as [l a r Hl Ha Hr]. destruct (dot_token b a Ha) as (t' & Ht & El). exists l, a, r, t'. repeat (split; auto).
    + destruct H as [l x v r Hl Hx Hr]. exists l, ([91] ++ x ++ [93]), r, (RDomain v). split; [now rewrite <- !app_assoc|]. repeat (split; auto). now constructor.
Qed.
Lemma merge_tokens : forall b x t cs l y d, clear_token b x t -> clear_tokens b cs l -> soft x -> cs = [y] ++ d -> rfc_atext y ->
  exists l', clear_tokens b (x ++ cs) l' /\ token_letters t ++ flat_map token_letters l = flat_map token_letters l'.
Proof.
  intros b x t cs l y d Hx H Sx E Hy. destruct (token_ends b x t Hx Sx) as [Dx ->].
  assert (M : forall c k, clear_token b c k -> rfc_dot_atom_text b c /\ token_letters k = map inl c -> exists k', clear_token b (x ++ c) k' /\ token_letters k' = map inl x ++ token_letters k).
  { intros c k Hk [Dc ->]. destruct (dot_token b (x ++ c) (dot_text_app b x c Dx Dc)) as (k' & H1 & H2). exists k'. split; auto. now rewrite H2, map_app. }
  destruct H as [c k r Hc Hr|c k r w cs l Hc Hr Hw HD Hcs].
  - destruct (M c k Hc (token_starts b c k r y d Hc E Hy)) as (k' & H1 & H2). exists [k']. rewrite app_assoc. split; [now constructor|]. cbn [flat_map]. rewrite H2. now rewrite <- app_assoc.
  - destruct (M c k Hc (token_starts b c k (r ++ w ++ cs) y d Hc E Hy)) as (k' & H1 & H2). exists (k' :: l). rewrite app_assoc. split.
    + constructor; auto. intros E1 E2. apply distinct_after; [eapply clear_token_some; eauto|auto].
    + cbn [flat_map]. rewrite H2. now rewrite <- app_assoc.
Qed.
Lemma tokens_regular : forall b c l, many_of (bracketed_token b) c l -> l <> [] -> exists w c' l', c = w ++ c' /\ rfc_oCFWS w /\ clear_tokens b c' l' /\ same_tokens l l'.
Proof.
  intros b c l H. induction H as [|c t cs l Hc Hcs IH]; intros Hn; [congruence|]. destruct (token_split b c t Hc) as (w & x & r & t' & -> & Hw & Hr & Hx & El). exists w. destruct l as [|t2 l].
  - inversion Hcs; subst. exists (x ++ r), [t']. rewrite app_nil_r. split; [reflexivity|]. split; [auto|]. split; [now constructor|]. unfold same_tokens. cbn [flat_map]. now rewrite El.
  - destruct IH as (w2 & c2 & l2 & -> & Hw2 & H2 & S2); [discriminate|]. unfold same_tokens in *. 
    assert (J : (r = [] -> w2 = [] -> distinct x c2) -> exists c' l', (w ++ x ++ r) ++ w2 ++ c2 = w ++ c' /\ rfc_oCFWS w /\ clear_tokens b c' l' /\ flat_map token_letters (t :: t2 :: l) = flat_map token_letters l').
    { intros K. exists (x ++ r ++ w2 ++ c2), (t' :: l2). rewrite <- !app_assoc. split; [reflexivity|]. split; [auto|]. split; [now constructor|].
      change (token_letters t ++ flat_map token_letters (t2 :: l) = token_letters t' ++ flat_map token_letters l2). now rewrite El, S2. }
    destruct (distinct_dec x c2) as [D|[D1 (y & d & E & Hy)]]; [auto|]. destruct r as [|z r]; [|apply J; discriminate]. destruct w2 as [|z w2]; [|apply J; discriminate].
    destruct (merge_tokens b x t' c2 l2 y d Hx H2 D1 E Hy) as (l' & H3 & E3). exists (x ++ c2), l'. split; [now rewrite !app_nil_r, <- app_assoc|]. split; [auto|]. split; [auto|].
    change (token_letters t ++ flat_map token_letters (t2 :: l) = flat_map token_letters l'). now rewrite El, S2.
Qed.
Lemma received_regular : forall b c v, bracketed_received b c v -> exists v', clear_received b c v' /\ same_received v v'.
Proof.
  intros b c v [c0 l c' d Hl Hd]. destruct l as [|t l].
  - inversion Hl; subst. exists ([], d). split; [now constructor|split; reflexivity].
  - destruct (tokens_regular b c0 (t :: l) Hl) as (w & c1 & l' & -> & Hw & H1 & S1); [discriminate|]. exists (l', d). split; [|split; [exact S1|reflexivity]].
    rewrite <- app_assoc. now constructor.
Qed.

(* ---- headers ---- *)
Lemma received_header_regular : forall m b c v, on_tidy_line (rfc_header "Received" (bracketed_received b)) c v -> unmarked m c ->
  exists v', rfc_header "Received" (tidily (clear_received b)) c v' /\ same_received v v'.
Proof. intros m b c v [H Ht] Hm. apply (header_regular _ _ _ _ _ _ _ _ H Hm Ht). intros x a Hx _. now apply received_regular. Qed.
Lemma resent_regular : forall m b EW, marked_only m EW -> forall c f, on_tidy_line (rfc_resent b EW) c f -> unmarked m c -> exists f', clear_resent m b EW c f' /\ same_resent f f'.
Proof.
  intros m b EW HW c f [H Ht] Hm. destruct H as [c v H|c v H|c v H|c v H|c v H|c v H|c v H].
  - exists (TDate v). split; [|constructor]. apply clear_resent_date. now apply header_regular_same.
  - destruct (header_regular _ _ _ _ _ _ _ _ H Hm Ht (mailbox_list_regular _ _ _ HW)) as (v' & A & B). exists (TFrom v'). split; [now apply clear_resent_from|now constructor].
  - destruct (header_regular _ _ _ _ _ _ _ _ H Hm Ht (mailbox_regular _ _ _ HW)) as (v' & A & B). exists (TSender v'). split; [now apply clear_resent_sender|now constructor].
  - destruct (header_regular _ _ _ _ _ _ _ _ H Hm Ht (address_list_regular _ _ _ HW)) as (v' & A & B). exists (TTo v'). split; [now apply clear_resent_to|now constructor].
  - destruct (header_regular _ _ _ _ _ _ _ _ H Hm Ht (address_list_regular _ _ _ HW)) as (v' & A & B). exists (TCc v'). split; [now apply clear_resent_cc|now constructor].
  - destruct (header_regular _ _ _ _ _ _ _ _ H Hm Ht (bcc_regular _ _ _ HW)) as (v' & A & B). exists (TBcc v'). split; [now apply clear_resent_bcc|now constructor].
  - exists (TMessageId v). split; [|constructor]. apply clear_resent_msg_id. now apply header_regular_same.
Qed.
Lemma many_regular : forall A B m (P : bytes -> A -> Prop) (Q : bytes -> B -> Prop) (S : A -> B -> Prop),
  (forall c a, P c a -> unmarked m c -> exists a', Q c a' /\ S a a') -> forall c l, many_of P c l -> unmarked m c -> exists l', many_of Q c l' /\ Forall2 S l l'.
Proof.
  intros A B m P Q S H c l Hc. induction Hc as [|c a cs l Ha Hl IH]; intros Hm; [exists []; split; constructor|].
  destruct (H c a Ha) as (a' & H1 & H2); [eapply unmarked_l; eauto|]. destruct IH as (l' & H3 & H4); [eapply unmarked_r; eauto|]. exists (a' :: l'). split; now constructor.
Qed.
Lemma block_regular : forall E c f, regular_block E c f -> exists f', clear_block E c f' /\ alike f f' /\ (forall fs, separate f fs -> separate f' fs) /\ (forall g fs, separate g (f :: fs) -> separate g (f' :: fs)).
Proof.
  intros E c f [c1 p c2 r c3 l H1 T1 Hr H2 H3 Hm].
  destruct (many_regular _ _ _ _ _ _ (received_header_regular (f_mime E) (f_compatibility_fixes E)) c2 r H2) as (r' & H2' & S2); [apply unmarked_r in Hm; eapply unmarked_l; eauto|].
  destruct (many_regular _ _ _ _ _ _ (resent_regular (f_mime E) (f_compatibility_fixes E) (encoded E) (encoded_marked E)) c3 l H3) as (l' & H3' & S3); [apply unmarked_r in Hm; eapply unmarked_r; eauto|].
  exists (FTrace p r' l'). split; [|split; [now constructor|split]].
  - constructor; auto.
    + destruct H1 as [|c1 p H1]; constructor. now apply header_regular_same.
    + intros ->. inversion S2. congruence.
  - intros [|[] fs]; cbn; auto. intros [H|H]; auto. left. intros ->. inversion S3. congruence.
  - intros [] fs; cbn; auto.
Qed.
Lemma blocks_regular : forall E c fs, regular_blocks E c fs -> exists fs', clear_blocks E c fs' /\ Forall2 alike fs fs' /\ (forall g, separate g fs -> separate g fs').
Proof.
  intros E c fs H. induction H as [|c f cs fs H Hs Hfs (fs' & A & B & C)]; [exists []; split; [constructor|split; [constructor|auto]]|].
  destruct (block_regular E c f H) as (f' & H1 & H2 & H3 & H4). exists (f' :: fs'). split; [|split; [now constructor|]].
  - constructor; auto.
  - intros g Hg. apply (H4 g fs) in Hg. destruct g, f'; auto.
Qed.
(* regular blocks are blocks of the grammar *)
Lemma many_impl : forall A (P Q : bytes -> A -> Prop), (forall c a, P c a -> Q c a) -> forall c l, many_of P c l -> many_of Q c l.
Proof. intros A P Q H c l Hc. induction Hc; constructor; auto. Qed.
Theorem regular_block_text : forall E c f, f_trace E = true -> regular_block E c f -> field_text E c f.
Proof.
  intros E c f Hf [c1 p c2 r c3 l H1 T1 Hr H2 H3 Hm]. apply text_trace; auto.
  - eapply many_impl; [|exact H2]. intros x v [[n y v' Hn [c0 l0 c' d Hl Hd]] _]. constructor; auto. constructor; auto. eapply many_impl; [|exact Hl]. intros z t [z' w Hw|z' a Ha|z' w Hw]; now constructor.
  - eapply many_impl; [|exact H3]. now intros x v [H _].
Qed.

(* ---- messages ---- *)
Lemma alike_trace_same : forall f f', (exists p r l, f = FTrace p r l) -> same_field f f' -> f' = f.
Proof. intros f f' (p & r & l & ->) H. inversion H; subst; auto. Qed.
Theorem messages_recognised : forall E c1 t c2 fs c3 b, env_ok E -> regular_blocks E c1 t -> (f_trace E = true \/ t = []) -> regular_fields E c2 fs -> rest_text c3 b ->
  (f_mime E = false -> forall t, b = Some t -> body_text t) ->
  exists fs', parse_message E (c1 ++ c2 ++ c3) = Ok (fs', b) /\ Forall2 matching (t ++ fs) fs'.
Proof.
  intros E c1 t c2 fs c3 b HE Ht Hf H Hb Hbt. destruct (regular_fields_clear E c2 fs HE H) as (f1 & H1 & A1). destruct (blocks_regular E c1 t Ht) as (t1 & B1 & A2 & _).
  assert (L : f_trace E = true \/ t1 = []) by (destruct Hf as [Hf| ->]; auto; right; now inversion A2).
  destruct (message_forward E (c1 ++ c2 ++ c3) (t1 ++ f1) b HE) as (f2 & H2 & S); auto; [now constructor|].
  exists f2. split; auto. apply Forall2_app_inv_l in S as (x & y & Sx & Sy & ->). apply Forall2_app; [|eapply matching_list; eauto].
  clear - A2 Sx B1. revert x Sx t A2. induction B1 as [|c f cs fs H Hs Hfs IH]; intros x Sx t A2; inversion Sx; subst; inversion A2; subst; constructor; eauto.
  left. assert (y = f) as -> by (eapply alike_trace_same; eauto; destruct H; eauto). assumption.
Qed.

(* ---- an example: the letters c and d may be two words ---- *)
Definition some_received : bytes := bs "Received: by<a@b.c>cd; 1 Jan 2020 10:00 +0000" ++ CRLF.
Definition some_tokens : list received_token := [RWord (bs "by"); RAddr {| a_local_part := bs "a"; a_domain := bs "b.c" |}; RWord (bs "c"); RWord (bs "d")].
Lemma some_received_regular : forall E, regular_blocks E some_received [FTrace None [(some_tokens, some_time)] []].
Proof.
  intros E. assert (W : forall l a, rfc_oCFWS l -> chars1 rfc_atext a -> bracketed_token (f_compatibility_fixes E) (l ++ a ++ []) (RWord a)).
  { intros l a Hl Ha. constructor. constructor. apply atom_intro; auto. }
  change some_received with (([] ++ (some_received ++ []) ++ []) ++ []). constructor; [|exact I|constructor]. constructor; [constructor|intros v H; symmetry in H; now apply app_eq_nil in H as [_ H]|discriminate| |constructor|].
  - constructor; [|constructor]. split.
    + change some_received with (bs "Received" ++ [58] ++ (((bs " " ++ bs "by" ++ []) ++ ([] ++ [60] ++ bs "a@b.c" ++ [62] ++ []) ++ ([] ++ bs "c" ++ []) ++ ([] ++ bs "d" ++ []) ++ []) ++ bs ";" ++ bs " 1 Jan 2020 10:00 +0000") ++ CRLF).
      constructor; [reflexivity|]. constructor; [|exact some_time_value]. constructor; [apply W; [exact one_blank|split; [discriminate|apply atext_all; repeat constructor]]|].
      constructor; [constructor; constructor; [constructor| |constructor]; change (bs "a@b.c") with ([] ++ bs "a@b.c" ++ []); apply abc_text; constructor|].
      constructor; [apply W; [constructor|split; [discriminate|apply atext_all; repeat constructor]]|]. constructor; [apply W; [constructor|split; [discriminate|apply atext_all; repeat constructor]]|]. constructor.
    + intros v H. change some_received with (bs "Received: by<a@b.c>cd; 1 Jan 2020 10:00 +0000" ++ CRLF) in H. apply app_inv_tail in H as <-.
      intros a w E1 [Hn Hw]. destruct (exists_last Hn) as (w' & x & ->). exfalso.
      apply (f_equal (@rev byte)) in E1. rewrite !rev_app_distr in E1. cbn in E1. injection E1 as E1 _. apply Forall_app in Hw as [_ Hw]. inversion Hw as [|? ? [X|X] _]; subst; discriminate.
  - intros _ a b H. apply (f_equal (existsb (fun x => x =? 63))) in H. rewrite (existsb_app _ a) in H. cbn in H. rewrite orb_true_r in H. discriminate.
Qed.

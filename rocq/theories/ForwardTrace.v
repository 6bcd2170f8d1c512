(* Completeness, part 8: the values of Bcc, Keywords, Return-Path and Received. *)
From Coq Require Import Lia ZifyBool ZifyNat ZifyN.
From Verif Require Import Base Combinators CharSets Whitespace QuotedString Common EncodedWord Address Time MimeFields Fields Rfc5322 Rfc2047 CodecSpec RfcFields Post SoundBase SoundAddr Steps Complete Forward ForwardText ForwardAddr ForwardList ForwardTime CompleteFields.
Local Open Scope N_scope.

(* ---- Keywords ---- *)
Lemma keyword_forward1 : forall E c n i, clear_phrase (f_mime E) (encoded E) c n -> follows c i -> ends is_atext i -> ends (fun c => 34 =? c) i ->
  phrase E (c ++ i) = Ok (i, n).
Proof.
  intros E c n i Hc Hf H1 H2. destruct (phrase_forward E c n [] i) as (l' & _ & _ & Hl & H); auto; [constructor|left; auto|]. rewrite (Hl eq_refl) in H. exact H.
Qed.
Lemma keywords_steps : forall E c l, clear_keywords (f_mime E) (encoded E) c l -> forall i, follows c i -> ends is_atext i -> ends (fun c => 34 =? c) i -> ends (fun c => 44 =? c) i ->
  exists a l' j, l = a :: l' /\ phrase E (c ++ i) = Ok (j, a) /\ steps (prefixed (phrase E) (bs ",")) j l' i /\ (length j <= length (c ++ i))%nat.
Proof.
  intros E c l H. induction H as [c a Hc|c a cs l Hc Hcs IH]; intros i Hf H1 H2 H3.
  - exists a, [], i. split; [reflexivity|]. split; [now apply keyword_forward1|]. split; [|rewrite app_length; lia]. eapply steps_stop. unfold prefixed. change (bs ",") with [44].
    destruct (starts_with i [44]) eqn:X; [|reflexivity]. apply starts_with_spec in X as [t ->]. discriminate H3.
  - change (bs ",") with [44] in Hf |- *. apply follows_after1 in Hf; [|vis]. destruct (IH i Hf H1 H2 H3) as (a2 & l2 & j & -> & Hj & Hs & Hl). rewrite <- !app_assoc.
    exists a, (a2 :: l2), ([44] ++ cs ++ i). split; [reflexivity|]. split; [apply keyword_forward1; auto; [apply follows_head'; vis|reflexivity|reflexivity]|].
    split; [|rewrite !app_length in *; cbn [length]; lia]. eapply steps_more; [| |exact Hs].
    + unfold prefixed. change (bs ",") with [44]. rewrite starts_with_app. rewrite unchecked_from_app. cbn [bind]. exact Hj.
    + rewrite (app_length [44]). cbn [length]. lia.
Qed.
Lemma keywords_forward : forall E c l i, clear_keywords (f_mime E) (encoded E) c l -> follows c (CRLF ++ i) -> keywords_value E (c ++ CRLF ++ i) = Ok (CRLF ++ i, l).
Proof.
  intros E c l i H Hf. destruct (keywords_steps E c l H (CRLF ++ i) Hf) as (a & l' & j & -> & Hj & Hs & _); try reflexivity.
  unfold keywords_value. use_phrase Hj. cbn [bind]. rewrite (many_steps _ _ _ _ _ Hs). reflexivity.
Qed.

(* ---- Bcc ---- *)
Lemma dot_atom_stop : forall E l i, rfc_oCFWS l -> follows l i -> ends is_atext i -> exists e, dot_atom E (l ++ i) = Err e.
Proof.
  intros E l i Hl Hf Hi. unfold dot_atom. rewrite (skip_cfws_forward l i Hl Hf). cbn [bind]. unfold dot_atom_text.
  destruct (take_while1_err is_atext i Hi) as [e ->]. cbn. eauto.
Qed.
Lemma phrase_stop : forall E l i, rfc_oCFWS l -> follows l i -> ends is_atext i -> ends (fun c => 34 =? c) i -> exists e, phrase E (l ++ i) = Err e.
Proof. intros E l i Hl Hf H1 H2. destruct (phrase_word_none E l i) as [e He]; auto. exists e. unfold phrase, many1. now rewrite He. Qed.
Lemma addr_spec_stop : forall E l i, rfc_oCFWS l -> follows l i -> ends is_atext i -> ends (fun c => 34 =? c) i -> exists e, addr_spec E (l ++ i) = Err e.
Proof.
  intros E l i Hl Hf H1 H2. unfold addr_spec, local_part. cbn [match_parsers]. destruct (dot_atom_stop E l i) as [e ->]; auto. cbn [attempt].
  destruct (quoted_string_none l i) as [e' ->]; auto. cbn. eauto.
Qed.
Lemma address_stop : forall E l i, rfc_oCFWS l -> follows l i -> ends is_atext i -> ends (fun c => 34 =? c) i -> ends (fun c => 60 =? c) i -> exists e, address E (l ++ i) = Err e.
Proof.
  intros E l i Hl Hf H1 H2 H3. unfold address, mailbox. cbn [match_parsers]. unfold name_addr, optional.
  destruct (phrase_stop E l i) as [e1 P]; auto. use_phrase P. cbn [attempt bind]. destruct (angle_addr_none E l i) as [e2 A]; auto. use_at (angle_addr) A. cbn [attempt bind].
  unfold pmap at 1. destruct (addr_spec_stop E l i) as [e3 S]; auto. use_at (addr_spec) S. cbn [attempt bind]. unfold group. use_phrase P. cbn. eauto.
Qed.
Lemma bcc_forward : forall E c l i, tidily (clear_bcc (f_mime E) (f_compatibility_fixes E) (encoded E)) c l -> follows c (CRLF ++ i) -> bcc_value E (c ++ CRLF ++ i) = Ok (CRLF ++ i, l).
Proof.
  intros E c l i [[c' l' H|c' H] Ht] Hf; unfold bcc_value.
  - rewrite (address_list_forward E c' l') by (auto; try reflexivity; split; reflexivity). reflexivity.
  - destruct (address_stop E c' (CRLF ++ i)) as [e He]; try reflexivity; auto; [now constructor|].
    unfold address_list. use_at address He. cbn [bind attempt]. destruct (cfws_forward c' _ H Hf) as [v ->]. reflexivity.
Qed.

(* ---- Return-Path ---- *)
Ltac use_eq' H := match type of H with ?f ?a = ?z => match goal with |- context [f ?y] => replace (f y) with z by (symmetry; exact H) end end.
Lemma path_forward : forall E c p i, rfc_path (f_compatibility_fixes E) c p -> follows c i -> return_path_value E (c ++ i) = Ok (i, p).
Proof.
  intros E c p i [c' a H|x y z Hx Hy Hz] Hf; unfold return_path_value; cbn [match_parsers].
  - unfold pmap. rewrite (angle_addr_forward E c' a) by auto. reflexivity.
  - change (bs "<") with [60] in *. change (bs ">") with [62] in *.
    replace (x ++ [60] ++ y ++ [62] ++ z) with ((x ++ [60] ++ y) ++ [62] ++ z) in Hf by (now rewrite <- !app_assoc). apply follows_after1 in Hf; [|vis].
    rewrite <- !app_assoc. destruct (ocfws_before x 60 (y ++ [62] ++ z ++ i)) as [o O]; [auto|vis|vis|].
    unfold pmap, angle_addr, empty_path. change (bs "<") with [60]. change (bs ">") with [62].
    use_eq' O. cbn [bind].
    change (60 :: y ++ [62] ++ z ++ i) with ([60] ++ y ++ [62] ++ z ++ i). rewrite !tag_app. cbn [bind].
    destruct (addr_spec_stop E y ([62] ++ z ++ i)) as [e A]; auto; try reflexivity; [apply follows_head'; vis|].
    use_at addr_spec A. cbn [bind attempt]. destruct (ocfws_before y 62 (z ++ i)) as [o2 O2]; [auto|vis|vis|].
    use_eq' O2. cbn [bind]. change (62 :: z ++ i) with ([62] ++ z ++ i). rewrite tag_app. cbn [bind].
    destruct (ocfws_forward z i Hz Hf) as [o3 ->]. reflexivity.
Qed.

(* ---- Received ---- *)
Lemma dot_atom_core : forall E l c i j, rfc_oCFWS l -> rfc_dot_atom_text (f_compatibility_fixes E) c -> plain_end i -> skip_cfws i = Ok j ->
  dot_atom E (l ++ c ++ i) = Ok (j, c).
Proof.
  intros E l c i j Hl Hc [H1 H2] Hi. destruct (dot_atom_text_chars _ _ Hc) as [_ Hs]. unfold dot_atom.
  rewrite (skip_cfws_forward l (c ++ i) Hl); [|apply starts_visible_follows; now apply starts_visible_app]. cbn [bind].
  rewrite (dot_atom_text_forward E c i) by auto. cbn [bind]. rewrite Hi. reflexivity.
Qed.
Lemma word_atom : forall l a i j, rfc_oCFWS l -> chars1 rfc_atext a -> ends is_atext i -> skip_cfws i = Ok j -> word (l ++ a ++ i) = Ok (j, a).
Proof. intros l a i j Hl Ha H Hi. unfold word. cbn [match_parsers]. rewrite (atom_core l a i) by auto. rewrite Hi. reflexivity. Qed.
Lemma domain_none : forall E l d t, rfc_oCFWS l -> visible d -> d <> 40 -> is_atext d = false -> d <> 91 -> exists e, domain E (l ++ d :: t) = Err e.
Proof.
  intros E l d t Hl V H4 Ha H9. unfold domain. cbn [match_parsers]. destruct (dot_atom_none E l d t) as [e ->]; auto. cbn [attempt]. unfold domain_literal.
  destruct (ocfws_before l d t) as [o ->]; auto. cbn [bind]. change (bs "[") with [91]. rewrite tag_head_err; [cbn; eauto|]. change ((91 =? d) = false). apply N.eqb_neq. congruence.
Qed.
Lemma word_stop : forall l d t, rfc_oCFWS l -> after_phrase d -> exists e, word (l ++ d :: t) = Err e.
Proof.
  intros l d t Hl Hd. apply word_none; auto; [apply starts_visible_follows; now apply after_phrase_starts|apply Hd|now apply after_phrase_quote].
Qed.
Lemma clear_token_starts : forall b c t r, clear_token b c t -> starts_visible (c ++ r).
Proof.
  intros b c t r [c' H|x v H|x a H|c' H Hi|x v H]; try (apply starts_visible_cons; vis).
  - eapply chars1_starts; [|exact H]. apply atext_visible.
  - apply starts_visible_app. now apply dot_atom_text_chars in H.
Qed.
(* c ends like a domain *)
Definition soft (c : bytes) : Prop := exists a x, c = a ++ [x] /\ (rfc_atext x \/ x = 46).
Lemma chars_soft : forall c, c <> [] -> chars rfc_atext c -> soft c.
Proof.
  intros c Hn H. destruct (exists_last Hn) as (a & x & ->). exists a, x. split; auto. left. apply Forall_app in H as [_ H]. now inversion H.
Qed.
Lemma soft_after : forall a c, soft c -> soft (a ++ c).
Proof. intros a c (b & x & -> & H). exists (a ++ b), x. split; auto. now rewrite app_assoc. Qed.
Lemma dot_tail_soft : forall b t, rfc_dot_tail b t -> t = [] \/ soft t.
Proof.
  intros b t H. induction H as [|a t Ha Hb Ht [->|IH]]; auto; right.
  - rewrite app_nil_r. destruct a as [|y a]; [exists [], 46; auto|]. apply soft_after. now apply chars_soft.
  - now apply soft_after, soft_after.
Qed.
Lemma dot_atom_text_soft : forall b c, rfc_dot_atom_text b c -> soft c.
Proof.
  intros b c [a t [Hn Ha] Ht]. destruct (dot_tail_soft _ _ Ht) as [->|H]; [rewrite app_nil_r; now apply chars_soft|now apply soft_after].
Qed.
Lemma token_step : forall E l c t i j, rfc_oCFWS l -> clear_token (f_compatibility_fixes E) c t -> skip_cfws i = Ok j -> (soft c -> plain_end i) ->
  received_token_parser E (l ++ c ++ i) = Ok (j, t).
Proof.
  intros E l c t i j Hl Hc Hi Hs. unfold received_token_parser. destruct Hc as [c H|b v H|x a H|c H H46|b v H].
  - assert (P : plain_end i) by (apply Hs; destruct H; now apply chars_soft). rewrite (word_atom l c i j); [|auto|auto|apply P|auto]. cbn [attempt]. unfold domain. cbn [match_parsers].
    rewrite (dot_atom_core E l c i j); auto.
    + cbn [attempt]. rewrite Nat.ltb_irrefl. reflexivity.
    + rewrite <- (app_nil_r c). constructor; auto. constructor.
  - assert (W : word (l ++ ([34] ++ b ++ [34]) ++ i) = Ok (j, v)).
    { unfold word. cbn [match_parsers]. destruct (atom_none l 34 (b ++ [34] ++ i)) as [e A]; [auto|vis|vis|reflexivity|].
      rewrite <- !app_assoc. use1 atom A. cbn [attempt]. rewrite (quoted_string_core l b v) by auto. rewrite Hi. reflexivity. }
    use1 word W. cbn [attempt]. rewrite <- !app_assoc. destruct (domain_none E l 34 (b ++ [34] ++ i)) as [e D]; [auto|vis|vis|reflexivity|vis|]. use_at domain D. reflexivity.
  - rewrite <- !app_assoc. destruct (word_stop l 60 (x ++ [62] ++ i)) as [e W]; [auto|after|]. use1 word W. cbn [attempt].
    rewrite (angle_addr_core E l x a i j); auto.
  - assert (P : plain_end i) by (apply Hs; eapply dot_atom_text_soft; eauto). assert (X : exists a u, c = a ++ 46 :: u /\ chars1 rfc_atext a).
    { destruct H as [a u Ha Hu]. destruct (dot_tail_head _ _ Hu) as [->|[u' ->]]; [|eauto].
      rewrite app_nil_r in H46. exfalso. destruct Ha as [_ Ha]. unfold chars in Ha. rewrite Forall_forall in Ha. apply Ha in H46. apply atext_spec in H46. discriminate. }
    destruct X as (a & u & Ec & Ha). assert (W : exists j, word (l ++ c ++ i) = Ok (j, a)).
    { subst c. unfold word. cbn [match_parsers]. rewrite <- app_assoc. rewrite atom_core; [|auto|auto|reflexivity].
      assert (S : skip_cfws ([] ++ 46 :: u ++ i) = Ok (46 :: u ++ i)) by (apply skip_before; [constructor|vis|vis]). use1 skip_cfws S. cbn. eauto. }
    destruct W as [j' ->]. cbn [attempt]. unfold domain. cbn [match_parsers]. rewrite (dot_atom_core E l c i j) by auto. cbn [attempt].
    assert (X : (length a <? length c)%nat = true) by (subst c; rewrite app_length; cbn [length]; lia). rewrite X. reflexivity.
  - rewrite <- !app_assoc. destruct (word_stop l 91 (b ++ [93] ++ i)) as [e W]; [auto|after|]. use1 word W. cbn [attempt].
    destruct (angle_addr_none E l ([91] ++ b ++ [93] ++ i)) as [e2 A]; auto; [apply follows_head'; vis|reflexivity|]. use_at angle_addr A. cbn [attempt].
    destruct (addr_spec_stop E l ([91] ++ b ++ [93] ++ i)) as [e3 A']; auto; [apply follows_head'; vis|reflexivity|reflexivity|]. use_at addr_spec A'. cbn [attempt].
    unfold domain. cbn [match_parsers]. destruct (dot_atom_none E l 91 (b ++ [93] ++ i)) as [e4 D]; [auto|vis|vis|reflexivity|]. use_at dot_atom D. cbn [attempt].
    rewrite (domain_literal_core l b v i j) by auto. reflexivity.
Qed.
Lemma token_none : forall E l t, rfc_oCFWS l -> exists e, received_token_parser E (l ++ 59 :: t) = Err e.
Proof.
  intros E l t Hl. assert (F : follows l (59 :: t)) by (apply follows_head'; vis). unfold received_token_parser. destruct (word_stop l 59 t) as [e W]; [auto|after|]. use1 word W. cbn [attempt].
  destruct (angle_addr_none E l (59 :: t)) as [e2 A]; auto; [reflexivity|]. use_at angle_addr A. cbn [attempt].
  destruct (addr_spec_stop E l (59 :: t)) as [e3 A']; auto; [reflexivity|reflexivity|]. use_at addr_spec A'. cbn [attempt].
  destruct (domain_none E l 59 t) as [e4 D]; [auto|vis|vis|reflexivity|vis|]. use_at domain D. cbn [attempt]. eauto.
Qed.
Lemma clear_token_nonempty : forall b c t (x y : bytes), clear_token b c t -> (length y <= length x)%nat -> (length y < length (c ++ x))%nat.
Proof. intros b c t x y Hc H. destruct (clear_token_starts _ _ _ [] Hc) as (z & u & X & _). rewrite app_nil_r in X. subst c. rewrite app_length. cbn [length]. lia. Qed.
(* a token starts neither with a dot nor, next to a domain, with an atom character *)
Lemma clear_token_head : forall b c t r, clear_token b c t -> ends (fun c => 46 =? c) (c ++ r) /\ exists y d, c = [y] ++ d.
Proof.
  assert (A : forall a r, chars1 rfc_atext a -> ends (fun c => 46 =? c) (a ++ r) /\ exists y d, a = [y] ++ d).
  { intros [|y a] r [Hn H]; [congruence|]. split; [|exists y, a; reflexivity]. cbn. inversion H as [|? ? Hy _]; subst. apply atext_spec in Hy. destruct (46 =? y) eqn:E; auto. apply N.eqb_eq in E. subst y. discriminate. }
  intros b c t r [c' H|x v H|x a H|c' H Hi|x v H]; auto; try (split; [reflexivity|eexists; eexists; reflexivity]).
  destruct H as [a u Ha Hu]. rewrite <- app_assoc. destruct (A a (u ++ r) Ha) as [X (y & d & ->)]. split; auto. exists y, (d ++ u). reflexivity.
Qed.
Lemma distinct_plain : forall b c cs ts t, clear_tokens b cs ts -> distinct c cs -> soft c -> plain_end (cs ++ t).
Proof.
  intros b c cs ts t H D (a & x & -> & Hx). assert (X : exists c0 k r, clear_token b c0 k /\ cs = c0 ++ r) by (destruct H as [c0 k r H|c0 k r w cs l H]; eauto).
  destruct X as (c0 & k & r & Hk & ->). rewrite <- app_assoc. destruct (clear_token_head b c0 k (r ++ t) Hk) as [H1 (y & d & ->)]. split; auto.
  cbn. destruct (is_atext y) eqn:E; auto. apply atext_spec in E. exfalso. apply (D a x y (d ++ r) eq_refl); [reflexivity|auto].
Qed.
Lemma oCFWS_plain : forall c r, rfc_oCFWS c -> c <> [] -> plain_end (c ++ r).
Proof. intros c r H Hn. split; apply oCFWS_ends; auto; tauto. Qed.
Lemma tokens_steps : forall E c ts, clear_tokens (f_compatibility_fixes E) c ts -> forall l t, rfc_oCFWS l -> steps (received_token_parser E) (l ++ c ++ 59 :: t) ts (59 :: t).
Proof.
  intros E c ts H. induction H as [c k r Hc Hr|c k r w cs ks Hc Hr Hw HD Hcs IH]; intros l t Hl; rewrite <- !app_assoc.
  - eapply steps_more.
    + apply token_step with (j := 59 :: t); [auto|exact Hc|apply skip_before; [auto|vis|vis]|]. intros _. split; apply oCFWS_ends; auto; reflexivity.
    + rewrite (app_length l). pose proof (clear_token_nonempty _ _ _ (r ++ 59 :: t) (59 :: t) Hc) as X. rewrite (app_length r) in X. lia.
    + destruct (token_none E [] t) as [e Hn]; [constructor|]. eapply steps_stop. exact Hn.
  - assert (S : starts_visible (cs ++ 59 :: t)) by (destruct Hcs; rewrite <- ?app_assoc; eapply clear_token_starts; eauto).
    destruct (two_cfws_short r w (cs ++ 59 :: t) Hr Hw S) as (c' & Hc' & Hs & Hlen).
    eapply steps_more; [| |exact (IH c' t Hc')].
    + apply token_step; [auto|auto|exact Hs|]. intros Hsoft. destruct r as [|y r]; [|apply (oCFWS_plain (y :: r)); [auto|discriminate]]. destruct w as [|y w]; [|apply (oCFWS_plain (y :: w)); [auto|discriminate]].
      cbn [app]. eapply distinct_plain; eauto.
    + rewrite (app_length l). pose proof (clear_token_nonempty _ _ _ (r ++ w ++ cs ++ 59 :: t) (c' ++ cs ++ 59 :: t) Hc Hlen) as X. lia.
Qed.
Lemma received_forward : forall E c v i, clear_received (f_compatibility_fixes E) c v -> follows c i -> received_value E (c ++ i) = Ok (i, v).
Proof.
  intros E c v i [c' d Hd|w c0 l c' d Hw Hl Hd] Hf; unfold received_value; change (bs ";") with [59] in *.
  - destruct (token_none E [] (c' ++ i)) as [e Hn]; [constructor|]. rewrite <- app_assoc. erewrite (many_none _ _ ([59] ++ c' ++ i)) by exact Hn. cbn [bind]. rewrite tag_app. cbn [bind].
    change (follows ([] ++ [59] ++ c') i) in Hf. apply follows_after1 in Hf; [|vis]. rewrite (date_time_forward E c' d) by auto. reflexivity.
  - rewrite <- !app_assoc. pose proof (tokens_steps E c0 l Hl w (c' ++ i) Hw) as S. change (59 :: c' ++ i) with ([59] ++ c' ++ i) in S. rewrite (many_steps _ _ _ _ _ S). cbn [bind]. rewrite tag_app. cbn [bind].
    rewrite app_assoc in Hf. apply follows_after1 in Hf; [|vis]. rewrite (date_time_forward E c' d) by auto. reflexivity.
Qed.

(* Phrases with encoded words: what the parser reads is exactly what PhraseSpec.v says. *)
From Coq Require Import Lia ZifyBool ZifyNat ZifyN.
From Verif Require Import Base Utf8 Combinators CharSets Whitespace QuotedString Common EncodedWord Address Time Fields Rfc5322 Rfc2047 CodecSpec RfcFields Post SoundBase SoundAddr Steps Complete CompleteFields
  Forward ForwardText ForwardAddr ForwardList Writers KeenFacts PhraseSpec.
Local Open Scope N_scope.

Section Phrases.
Variable E : env.
Hypothesis HM : f_mime E = true.
Notation tc := (textcode E).
Notation compat := (f_compatibility_fixes E).

(* ---- one word ---- *)
Lemma encoded_failed : forall t, ~ starts_encoded tc t -> exists e, encoded_word E t = Err e.
Proof.
  intros t H. pose proof (sound_encoded_word E never t) as S. destruct (encoded_word E t) as [[r v]|e|k]; [exfalso|eauto|destruct S].
  destruct S as (c & -> & S). apply H. exists c, v, r. auto.
Qed.
Lemma starts_encoded_inner : forall t, starts_encoded tc t -> ends (fun c => is_wsp c || (c =? 13)) t.
Proof. intros t (e & v & r & H & ->). destruct H. reflexivity. Qed.
(* the first alternative of the code *)
Definition as_encoded (i : bytes) : res (bytes * bytes) := let* (i, _) := optional fws i in encoded_word E i.
Lemma word_choice : forall i, phrase_word E i = match_parsers [as_encoded; word] i.
Proof. intros i. unfold phrase_word. now rewrite HM. Qed.
Lemma as_encoded_ok : forall l v x w i, rfc_oFWS l v -> rfc_encoded_word tc x w -> as_encoded (l ++ x ++ i) = Ok (i, w).
Proof.
  intros l v x w i Hl Hx. unfold as_encoded. rewrite (ofws_inner l v); [|exact Hl|apply starts_encoded_inner; exists x, w, i; auto]. cbn [bind]. now apply encoded_word_forward.
Qed.
Lemma as_encoded_no : forall s t, rfc_oCFWS s -> starts_visible t -> ((exists v, rfc_oFWS s v) -> ~ starts_encoded tc t) -> exists e, as_encoded (s ++ t) = Err e.
Proof.
  intros s t Hs Ht HN. unfold as_encoded. pose proof (starts_visible_follows s t Ht) as F. destruct Hs as [|l' [t' w v Ht' Hw|w v Hw]].
  - assert (X : optional fws ([] ++ t) = Ok (t, None)). { destruct F as [F1 F2]. pose proof (ofws_forward [] [] t oFWS_none (stop_wsp _ F1) (proj2 F1) (or_intror _ (ltac:(discriminate) : settled []))) as O. exact O. }
    rewrite X. cbn [bind]. apply encoded_failed, HN. exists []. constructor.
  - apply comments_split in Ht' as (a & va & c & s & -> & Ha & Hc & _). rewrite <- !app_assoc. rewrite (ofws_inner a va); [|auto|now apply comment_inner].
    apply comment_head in Hc as [b ->]. cbn [app bind]. apply encoded_word_none. discriminate.
  - destruct F as [F1 F2]. rewrite (ofws_forward w v t (oFWS_some _ _ Hw) (stop_wsp _ F1) (proj2 F1) F2). cbn [bind]. apply encoded_failed, HN. exists v. now constructor.
Qed.
Definition is_plain (a u v : bytes) : Prop := (chars1 rfc_atext a /\ v = a /\ ends is_atext u) \/ exists b, a = [34] ++ b ++ [34] /\ rfc_qbody b v.
Lemma is_plain_starts : forall a u v t, is_plain a u v -> starts_visible (a ++ t).
Proof.
  intros a u v t [(H & _)|(b & -> & _)]; [eapply chars1_starts; [exact atext_visible|exact H]|apply starts_visible_cons; vis].
Qed.
Lemma plain_word : forall l a u v j, rfc_oCFWS l -> is_plain a u v -> skip_cfws u = Ok j -> word (l ++ a ++ u) = Ok (j, v).
Proof.
  intros l a u v j Hl Ha Hj. unfold word. cbn [match_parsers]. destruct Ha as [(H1 & -> & H2)|(b & -> & Hb)].
  - rewrite atom_core by auto. rewrite Hj. reflexivity.
  - rewrite <- !app_assoc. destruct (atom_none l 34 (b ++ [34] ++ u)) as [e He]; [auto|vis|vis|reflexivity|].
    change (34 :: b ++ [34] ++ u) with ([34] ++ b ++ [34] ++ u) in He. rewrite He. cbn [attempt]. rewrite (quoted_string_core l b v) by auto. rewrite Hj. reflexivity.
Qed.
Lemma word_encoded : forall l v x w i, rfc_oFWS l v -> rfc_encoded_word tc x w -> phrase_word E (l ++ x ++ i) = Ok (i, w).
Proof. intros l v x w i Hl Hx. rewrite word_choice. cbn [match_parsers]. now rewrite (as_encoded_ok l v x w i Hl Hx). Qed.
Lemma word_plain : forall l a u v j, rfc_oCFWS l -> is_plain a u v -> skip_cfws u = Ok j -> ((exists x, rfc_oFWS l x) -> ~ starts_encoded tc (a ++ u)) -> phrase_word E (l ++ a ++ u) = Ok (j, v).
Proof.
  intros l a u v j Hl Ha Hj HN. rewrite word_choice. cbn [match_parsers]. destruct (as_encoded_no l (a ++ u) Hl (is_plain_starts _ _ _ _ Ha) HN) as [e ->]. cbn [attempt].
  rewrite (plain_word l a u v j Hl Ha Hj). reflexivity.
Qed.
Lemma span_ends : forall f i a r, span f i = (a, r) -> ends f r.
Proof.
  intros f i. induction i as [|x i IH]; intros a r H; cbn in H; [injection H as <- <-; exact I|]. destruct (f x) eqn:X; [|injection H as <- <-; exact X].
  destruct (span f i) as [a' r'] eqn:Y. injection H as <- <-. now apply (IH a').
Qed.
Lemma take_while1_ends : forall f i r v, take_while1 f i = Ok (r, v) -> ends f r.
Proof.
  intros f [|x i] r v H; cbn [take_while1] in H; [discriminate|]. unfold take_while1 in H. destruct (negb (f x)); [discriminate|]. destruct (span f (x :: i)) as [a r'] eqn:Y.
  destruct (str_unchecked a); cbn [bind] in H; try discriminate. injection H as -> ->. eapply span_ends; eauto.
Qed.
Lemma skip_ok : forall i j, skip_cfws i = Ok j -> exists l, i = l ++ j /\ rfc_oCFWS l.
Proof. intros i j H. pose proof (sound_skip_cfws never i) as S. rewrite H in S. exact S. Qed.
Lemma word_back : forall i j v, word i = Ok (j, v) -> exists l a u, i = l ++ a ++ u /\ rfc_oCFWS l /\ is_plain a u v /\ skip_cfws u = Ok j.
Proof.
  intros i j v H. unfold word in H. cbn [match_parsers] in H. destruct (atom i) as [[r w]|e|k] eqn:A; cbn [attempt] in H; try discriminate.
  - injection H as -> ->. unfold atom in A. destruct (skip_cfws i) as [i1|e|k] eqn:S1; cbn [bind] in A; try discriminate. destruct (skip_ok _ _ S1) as (l & -> & Hl).
    pose proof (sound_take_while1 never is_atext rfc_atext i1 atext_spec atext_ascii) as T. destruct (take_while1 is_atext i1) as [[i2 a]|e|k] eqn:S2; cbn [map_err bind] in A; try discriminate. destruct T as (c & -> & -> & Hc).
    destruct (skip_cfws i2) as [i3|e|k] eqn:S3; cbn [bind] in A; try discriminate. injection A as -> ->. exists l, v, i2. split; [reflexivity|]. split; [exact Hl|]. split; [|exact S3].
    left. split; [exact Hc|]. split; [reflexivity|]. eapply take_while1_ends; eauto.
  - destruct (quoted_string i) as [[r w]|e'|k] eqn:Q; cbn [attempt] in H; try discriminate. injection H as -> ->. pose proof (sound_quoted_string never i) as S. rewrite Q in S. destruct S as (c & -> & S). inversion S as [l b w r Hl Hb Hr]; subst.
    rewrite <- !app_assoc in *. rewrite (quoted_string_core l b v) in Q by auto. destruct (skip_cfws (r ++ j)) as [j'|e'|k] eqn:S'; cbn [bind] in Q; try discriminate. injection Q as ->.
    exists l, ([34] ++ b ++ [34]), (r ++ j). rewrite <- !app_assoc. split; [reflexivity|]. split; [exact Hl|]. split; [|exact S']. right. exists b. auto.
Qed.
Lemma word_cases : forall i j v, phrase_word E i = Ok (j, v) ->
  (exists l w x, i = l ++ x ++ j /\ rfc_oFWS l w /\ rfc_encoded_word tc x v) \/
  (exists l a u, i = l ++ a ++ u /\ rfc_oCFWS l /\ is_plain a u v /\ skip_cfws u = Ok j /\ ((exists x, rfc_oFWS l x) -> ~ starts_encoded tc (a ++ u))).
Proof.
  intros i j v H. rewrite word_choice in H. cbn [match_parsers] in H. destruct (as_encoded i) as [[r w]|e|k] eqn:A; cbn [attempt] in H; try discriminate.
  - injection H as -> ->. left. unfold as_encoded in A. pose proof (sound_ofws never i) as S. destruct (optional fws i) as [[i1 o]|e|k]; cbn [bind] in A; try discriminate.
    destruct S as (l & -> & Hl). pose proof (sound_encoded_word E never i1) as S. rewrite A in S. destruct S as (x & -> & Hx). eauto 6.
  - right. destruct (word i) as [[r w]|e'|k] eqn:W; cbn [attempt] in H; try discriminate. injection H as -> ->. destruct (word_back _ _ _ W) as (l & a & u & -> & Hl & Ha & Hu). exists l, a, u. split; [reflexivity|]. split; [exact Hl|]. split; [exact Ha|]. split; [exact Hu|].
    intros [x Hx] (y & z & t & Hy & Q). rewrite Q in A. rewrite (as_encoded_ok l x y z t Hx Hy) in A. discriminate.
Qed.
Lemma word_shorter : forall i j v, phrase_word E i = Ok (j, v) -> (length j < length i)%nat.
Proof.
  intros i j v H. pose proof (sound_phrase_word E never i) as S. rewrite H in S. destruct S as (c & -> & S). apply phrase_word_nonempty in S. rewrite app_length. destruct c; [congruence|cbn; lia].
Qed.
(* the text in front of the position where the loop is *)
Definition at_word (k : bool) (c j : bytes) : Prop := if k then j = c else skip_cfws c = Ok j.
(* ---- forward ---- *)
Lemma gap_encoded : forall k s t, encoded_gap k s -> starts_visible t -> exists l v, rfc_oFWS l v /\ at_word k (s ++ t) (l ++ t).
Proof.
  intros [] s t H Ht; cbn [encoded_gap at_word] in *.
  - destruct H as [v H]. eauto.
  - destruct H as (r & l & v & -> & Hr & Hl). destruct (word_junction false true r l t Hr (ex_intro _ v Hl) Ht) as (l' & j & [v' H1] & -> & H2 & _). exists l', v'. split; [exact H1|]. now rewrite <- app_assoc.
Qed.
Lemma gap_plain : forall k s t, plain_gap k s -> starts_visible t -> exists l, rfc_oCFWS l /\ at_word k (s ++ t) (l ++ t) /\ ((exists v, rfc_oFWS l v) -> encoded_gap k s).
Proof.
  intros [] s t H Ht; cbn [plain_gap at_word encoded_gap] in *.
  - exists s. auto.
  - destruct H as (r & l & -> & Hr & Hl). destruct (word_junction false false r l t Hr Hl Ht) as (l' & j & H1 & -> & H2 & _). exists l'. split; [exact H1|]. rewrite <- app_assoc. split; [exact H2|].
    intros [v Hv]. destruct (skip_ok _ _ H2) as (r' & X & Hr'). exists r', l', v. split; [|auto]. apply (app_inv_tail t). rewrite <- !app_assoc. exact X.
Qed.
Lemma encoded_starts : forall e v t, rfc_encoded_word tc e v -> starts_visible (e ++ t).
Proof. intros e v t H. destruct H. exists 61. eexists. split; [reflexivity|split; vis]. Qed.
Lemma encoded_last : forall e v, rfc_encoded_word tc e v -> exists y d, e = y ++ [d] /\ visible d.
Proof. intros e v H. destruct (wcore_last E true false e v) as (y & d & H1 & H2 & _); [constructor; split; [exact HM|exact H]|eauto]. Qed.
Lemma plain_last : forall a u v, is_plain a u v -> exists y d, a = y ++ [d] /\ visible d.
Proof.
  intros a u v [((Hn & Ha) & _)|(b & -> & _)].
  - destruct (exists_last Hn) as (y & d & ->). exists y, d. apply Forall_app in Ha as [_ Ha]. inversion Ha; subst. split; auto. now apply atext_visible.
  - exists ([34] ++ b), 34. rewrite <- app_assoc. split; auto. vis.
Qed.
(* what is left at the end *)
Definition tail_of (c r : bytes) : Prop := c = r \/ exists y d, c = y ++ [d] ++ r /\ visible d.
Lemma tail_of_app : forall a d b r, tail_of b r -> visible d -> tail_of (a ++ [d] ++ b) r.
Proof.
  intros a d b r [->|(y & x & -> & Hx)] Hd; right; [eauto|]. exists (a ++ [d] ++ y), x. split; [now rewrite <- !app_assoc|exact Hx].
Qed.
Lemma words_steps : forall rest (Q : bytes -> Prop) k k' c vs, read_words tc rest k k' c vs ->
  (forall r, tail_of c r -> (if k' then r = [] else rfc_oCFWS r) -> exists f, Q f /\ at_word k' (r ++ rest) f /\ exists e, phrase_word E f = Err e) ->
  exists j f, at_word k (c ++ rest) j /\ Q f /\ steps (phrase_word E) j vs f.
Proof.
  intros rest Q k k' c vs H. induction H as [|s Hs|k k' s e v c vs Hs He Hc IH|k k' s a c vs Hs Ha Hx HN Hc IH|k k' s b v c vs Hs Hb Hc IH]; intros HF.
  - destruct (HF [] (or_introl eq_refl) eq_refl) as (f & HQ & Hf & e & He). exists f, f. split; [exact Hf|]. split; [exact HQ|]. eapply steps_stop; eauto.
  - destruct (HF s (or_introl eq_refl) Hs) as (f & HQ & Hf & e & He). exists f, f. split; [exact Hf|]. split; [exact HQ|]. eapply steps_stop; eauto.
  - destruct (encoded_last _ _ He) as (y & d & Ey & Hd). destruct IH as (j & f & Hj & HQ & S).
    { intros r Hr. apply HF. rewrite Ey. replace (s ++ (y ++ [d]) ++ c) with ((s ++ y) ++ [d] ++ c) by now rewrite <- !app_assoc. now apply tail_of_app. }
    cbn [at_word] in Hj. subst j. destruct (gap_encoded k s (e ++ c ++ rest) Hs (encoded_starts _ _ _ He)) as (l & w & Hl & Hg). exists (l ++ e ++ c ++ rest), f. rewrite <- !app_assoc. split; [exact Hg|]. split; [exact HQ|].
    pose proof (word_encoded l w e v (c ++ rest) Hl He) as W. eapply steps_more; [exact W|eapply word_shorter; exact W|exact S].
  - assert (P : is_plain a (c ++ rest) a).
    { left. split; [exact Ha|]. split; [reflexivity|]. destruct (c ++ rest) as [|x t]; [exact I|]. cbn. destruct (is_atext x) eqn:X; [|reflexivity]. apply atext_spec in X. destruct (Hx x t eq_refl X). }
    destruct (plain_last _ _ _ P) as (y & d & Ey & Hd). destruct IH as (j & f & Hj & HQ & S).
    { intros r Hr. apply HF. rewrite Ey. replace (s ++ (y ++ [d]) ++ c) with ((s ++ y) ++ [d] ++ c) by now rewrite <- !app_assoc. now apply tail_of_app. }
    destruct (gap_plain k s (a ++ c ++ rest) Hs (is_plain_starts _ _ _ _ P)) as (l & Hl & Hg & HG). exists (l ++ a ++ c ++ rest), f. rewrite <- !app_assoc. split; [exact Hg|]. split; [exact HQ|].
    pose proof (word_plain l a (c ++ rest) a j Hl P Hj (fun X => HN (HG X))) as W. eapply steps_more; [exact W|eapply word_shorter; exact W|exact S].
  - assert (P : is_plain ([34] ++ b ++ [34]) (c ++ rest) v) by (right; eauto). destruct IH as (j & f & Hj & HQ & S).
    { intros r Hr. apply HF. replace (s ++ [34] ++ b ++ [34] ++ c) with ((s ++ [34] ++ b) ++ [34] ++ c) by now rewrite <- !app_assoc. apply tail_of_app; [exact Hr|vis]. }
    destruct (gap_plain k s (([34] ++ b ++ [34]) ++ c ++ rest) Hs (is_plain_starts _ _ _ _ P)) as (l & Hl & Hg & HG). exists (l ++ ([34] ++ b ++ [34]) ++ c ++ rest), f. rewrite <- !app_assoc in *. split; [exact Hg|]. split; [exact HQ|].
    assert (W : phrase_word E (l ++ ([34] ++ b ++ [34]) ++ c ++ rest) = Ok (j, v)).
    { apply (word_plain l _ (c ++ rest) v j Hl P Hj). intros _ (e & w & t & He & X). destruct He. discriminate X. }
    rewrite <- !app_assoc in W. eapply steps_more; [exact W|eapply word_shorter; exact W|exact S].
Qed.
Lemma tail_follows : forall c r i, tail_of c r -> follows c i -> follows r i.
Proof. intros c r i [->|(y & d & -> & Hd)] H; [exact H|]. now apply follows_after1 in H. Qed.
Lemma read_forward : forall k c n lt i, read_phrase tc (lt ++ i) k c n -> rfc_oCFWS lt -> phrase_end c lt i -> ends is_atext i -> ends (fun c => 34 =? c) i ->
  exists l', rfc_oCFWS l' /\ follows l' i /\ (lt = [] -> l' = []) /\ phrase E (c ++ lt ++ i) = Ok (l' ++ i, n).
Proof.
  intros k c n lt i [Hn H] Hlt He H1 H2. destruct (words_steps (lt ++ i) (fun f => exists l', f = l' ++ i /\ rfc_oCFWS l' /\ follows l' i /\ (lt = [] -> l' = [])) _ _ _ _ H) as (j & f & Hj & (l' & -> & L1 & L2 & L3) & S).
  - intros r Hr Hk. assert (P : phrase_end r lt i). { destruct He as [[E1 E2]|E1]; [left|now right]. split; [exact E1|eapply tail_follows; eauto]. }
    assert (W : wtrail k r) by (destruct k; exact Hk).
    destruct (end_junction k r lt i W Hlt P) as (l' & j & L1 & -> & L2 & _ & L4 & L5). exists (l' ++ i). split; [exists l'; auto|]. split; [destruct k; exact L2|]. now apply phrase_word_none.
  - cbn [at_word] in Hj. subst j. exists l'. split; [exact L1|]. split; [exact L2|]. split; [exact L3|]. unfold phrase. now apply many1_steps.
Qed.
(* ---- back ---- *)
Lemma at_start : forall (k : bool) (j rest : bytes) vs, steps (phrase_word E) j vs rest -> forall g : bytes, (if k then g = [] else rfc_oCFWS g) -> at_word k (g ++ j) j ->
  exists c k', j = c ++ rest /\ read_words tc rest k k' (g ++ c) vs /\ (vs <> [] -> k' = false -> fold_start rest -> blank_end c).
Proof.
  intros k j rest vs H. revert k. induction H as [i e H|i r a l rest H _ Hs IH]; intros k g Hg Hk.
  - exists [], k. split; [reflexivity|]. split; [rewrite app_nil_r; destruct k; [subst; constructor|now constructor]|congruence].
  - destruct (word_cases _ _ _ H) as [(s & w & x & -> & Hs1 & Hx)|(s & x & u & -> & Hs1 & Hx & Hu & HN)].
    + destruct (IH true [] eq_refl eq_refl) as (c & k' & -> & Hc & Hz). exists (s ++ x ++ c), k'. split; [now rewrite <- !app_assoc|]. split.
      2:{ intros _ K F. rewrite app_assoc. apply blank_app, Hz; [|exact K|exact F]. intros ->. inversion Hc; subst; congruence. }
      replace (g ++ s ++ x ++ c) with ((g ++ s) ++ x ++ c) by now rewrite <- !app_assoc.
      apply (read_encoded tc rest k k' (g ++ s) x a c l); [|exact Hx|exact Hc]. destruct k; cbn [encoded_gap]; [subst g; cbn [app]; now exists w|]. exists g, s, w. auto.
    + destruct (skip_ok _ _ Hu) as (g' & -> & Hg'). destruct (IH false g' Hg' Hu) as (c & k' & -> & Hc & Hz). exists (s ++ x ++ g' ++ c), k'. split; [now rewrite <- !app_assoc|]. split.
      2:{ intros _ K F. destruct l as [|v l]; [|rewrite !app_assoc; apply blank_app, Hz; [discriminate|exact K|exact F]]. inversion Hs as [i0 e0 He0 E1 E2 E3|]. symmetry in E3. change rest with ([] ++ rest) in E3 at 1. apply app_inv_tail in E3. subst c.
          pose proof (keen_word (s ++ x ++ g' ++ rest)) as W. rewrite (plain_word s x (g' ++ rest) a rest Hs1 Hx Hu) in W. destruct W as (c & X & W). rewrite app_nil_r.
          replace (s ++ x ++ g') with c; [now apply W|]. apply (app_inv_tail rest). rewrite <- !app_assoc. now symmetry. }
      assert (PG : plain_gap k (g ++ s)) by (destruct k; cbn [plain_gap]; [subst g; exact Hs1|exists g, s; auto]).
      destruct Hx as [(Ha & -> & He)|(b & -> & Hb)].
      * replace (g ++ s ++ x ++ g' ++ c) with ((g ++ s) ++ x ++ g' ++ c) by now rewrite <- !app_assoc. apply read_atom; [exact PG|exact Ha| | |exact Hc].
        -- intros y t X Hy. rewrite <- app_assoc in X. rewrite X in He. apply atext_spec in Hy. cbn in He. congruence.
        -- rewrite <- app_assoc. intros HG. destruct k; cbn [encoded_gap at_word] in *; [subst g; now apply HN|]. destruct HG as (r1 & l1 & v1 & X & Hr1 & Hl1). intros HS. apply HN; [|exact HS].
           assert (V : starts_visible (x ++ g' ++ c ++ rest)) by (eapply chars1_starts; [exact atext_visible|exact Ha]).
           destruct (word_junction false true r1 l1 (x ++ g' ++ c ++ rest) Hr1 (ex_intro _ v1 Hl1) V) as (l2 & j & [v2 Hl2] & -> & Hj & _). rewrite app_assoc in Hk. rewrite X in Hk. rewrite <- !app_assoc in *.
           rewrite Hk in Hj. injection Hj as Hj. apply app_inv_tail in Hj. subst l2. now exists v2.
      * replace (g ++ s ++ ([34] ++ b ++ [34]) ++ g' ++ c) with ((g ++ s) ++ [34] ++ b ++ [34] ++ g' ++ c) by now rewrite <- !app_assoc. now apply read_quoted.
Qed.
Lemma phrase_steps : forall i r n, phrase E i = Ok (r, n) -> n <> [] /\ steps (phrase_word E) i n r.
Proof.
  intros i r n H. unfold phrase, many1 in H. destruct (phrase_word E i) as [[i1 v]|e|k] eqn:W; cbn [bind] in H; try discriminate. destruct (many (phrase_word E) i1) as [[i2 l]|e|k] eqn:M; cbn [bind] in H; try discriminate. injection H as -> <-.
  split; [discriminate|]. eapply steps_more; [exact W|eapply word_shorter; eauto|]. eapply many_inv; [exact word_shorter|exact M].
Qed.
Lemma read_back : forall i r n, phrase E i = Ok (r, n) -> exists k c, i = c ++ r /\ read_phrase tc r k c n /\ (k = false -> fold_start r -> blank_end c).
Proof.
  intros i r n H. apply phrase_steps in H as [Hn H]. destruct (at_start true i r n H [] eq_refl eq_refl) as (c & k & -> & Hc & Hz). exists k, c. split; [reflexivity|]. split; [now split|auto].
Qed.
End Phrases.

(* Completeness, part 4: mailboxes, groups and their lists. *)
From Coq Require Import Lia ZifyBool ZifyNat ZifyN.
From Verif Require Import Base Combinators CharSets Whitespace QuotedString Common EncodedWord Address Time Fields Rfc5322 Rfc2047 CodecSpec RfcFields Post SoundBase SoundAddr Steps Complete Forward ForwardText ForwardAddr.
Local Open Scope N_scope.

(* ---- mailboxes ---- *)
(* characters that end a phrase *)
Definition after_phrase (d : byte) : Prop := visible d /\ d <> 40 /\ d <> 34 /\ is_atext d = false.
Lemma after_phrase_starts : forall d t, after_phrase d -> starts_visible (d :: t).
Proof. intros d t (H1 & H2 & _). now apply starts_visible_cons. Qed.
Lemma after_phrase_quote : forall d t, after_phrase d -> ends (fun c => 34 =? c) (d :: t).
Proof. intros d t (_ & _ & H & _). change ((34 =? d) = false). apply N.eqb_neq. congruence. Qed.
Lemma phrase_before : forall E c n l d t, clear_phrase (f_mime E) (encoded E) c n -> rfc_oCFWS l -> after_phrase d ->
  exists l', rfc_oCFWS l' /\ phrase E (c ++ l ++ d :: t) = Ok (l' ++ d :: t, n).
Proof.
  intros E c n l d t Hc Hl Hd. destruct (phrase_forward E c n l (d :: t)) as (l' & H1 & _ & _ & H2); auto.
  - right. now apply after_phrase_starts.
  - apply Hd.
  - now apply after_phrase_quote.
  - eauto.
Qed.
Lemma phrase_none : forall E l d t, rfc_oCFWS l -> after_phrase d -> exists e, phrase E (l ++ d :: t) = Err e.
Proof.
  intros E l d t Hl Hd. destruct (phrase_word_none E l (d :: t)) as [e He]; auto.
  - apply starts_visible_follows. now apply after_phrase_starts.
  - apply Hd.
  - now apply after_phrase_quote.
  - exists e. unfold phrase, many1. now rewrite He.
Qed.
Ltac use_at f H := match goal with |- context [f ?E ?x] => match type of H with _ = ?r => replace (f E x) with r by (symmetry; exact H) end end.
Ltac use_phrase H := match goal with |- context [phrase ?E ?x] => match type of H with _ = ?r => replace (phrase E x) with r by (symmetry; exact H) end end.
Ltac after := solve [repeat split; try vis; reflexivity].

Lemma not_named : forall E c n d t, clear_phrase (f_mime E) (encoded E) c n -> after_phrase d -> d <> 60 -> exists e, name_addr E (c ++ d :: t) = Err e.
Proof.
  intros E c n d t Hc Hd H6. destruct (phrase_before E c n [] d t Hc oCFWS_none Hd) as (l' & Hl & H). cbn [app] in H. unfold name_addr, optional. rewrite H. cbn [attempt bind].
  destruct (angle_addr_none E l' (d :: t)) as [e ->]; auto.
  - apply starts_visible_follows. now apply after_phrase_starts.
  - change ((60 =? d) = false). apply N.eqb_neq. congruence.
  - cbn. eauto.
Qed.
Lemma rfc_of_clear_addr_spec : forall m compat c a, clear_addr_spec m compat c a -> rfc_addr_spec compat c a.
Proof. intros m compat c a []; constructor; auto; [now apply local_dot_atom|now apply local_quoted]. Qed.
Lemma plain_not_named : forall E c a i, clear_addr_spec (f_mime E) (f_compatibility_fixes E) c a -> exists e, name_addr E (c ++ i) = Err e.
Proof.
  intros E c a i [c1 l c2 d [pl t r Hl [a0 t0 Ha Ht] Hr] Hn Hd|c1 l c2 d Hq Hd].
  - assert (Hn' : not_encoded (f_mime E) a0).
    { intros Hm x ->. apply (Hn Hm (x ++ t0)). now rewrite <- app_assoc. }
    destruct Ht as [|b t0 Hb Hc Ht]; rewrite <- !app_assoc.
    + cbn [app]. replace (pl ++ a0 ++ r ++ 64 :: c2 ++ i) with ((pl ++ a0 ++ r) ++ 64 :: c2 ++ i) by (now rewrite <- !app_assoc).
      eapply not_named; [|after|vis]. apply clear_phrase_one, clear_atom; [now constructor|exact Hn'].
    + set (u := b ++ _). change (pl ++ a0 ++ [46] ++ u) with (pl ++ a0 ++ 46 :: u). replace (pl ++ a0 ++ 46 :: u) with ((pl ++ a0 ++ []) ++ 46 :: u) by (now rewrite app_nil_r, <- !app_assoc).
      eapply not_named; [|after|vis]. apply clear_phrase_one, clear_atom; [constructor; auto; constructor|exact Hn'].
  - rewrite <- !app_assoc. eapply not_named; [|after|vis]. eapply clear_phrase_one, clear_quoted; exact Hq.
Qed.
Lemma mailbox_forward : forall E c m i, clear_mailbox (f_mime E) (f_compatibility_fixes E) (encoded E) c m -> follows c i -> plain_end i -> mailbox E (c ++ i) = Ok (i, m).
Proof.
  intros E c m i [c1 n c2 a Hp [l c' a' r Hl Hc Hr]|c' a [l c'' a' r Hl Hc Hr]|c' a Hc] Hf Hi; unfold mailbox; cbn [match_parsers].
  - replace (c1 ++ l ++ [60] ++ c' ++ [62] ++ r) with ((c1 ++ l ++ [60] ++ c') ++ [62] ++ r) in Hf by (now rewrite <- !app_assoc).
    apply follows_after1 in Hf; [|vis]. rewrite <- !app_assoc. destruct (phrase_before E c1 n l 60 (c' ++ [62] ++ r ++ i) Hp Hl) as (l' & Hl' & H); [after|].
    unfold name_addr, optional. use_phrase H. cbn [attempt bind].
    change (l' ++ 60 :: c' ++ [62] ++ r ++ i) with (l' ++ [60] ++ c' ++ [62] ++ r ++ i). rewrite (angle_addr_core E l' c' a' (r ++ i) i); auto. now apply skip_cfws_forward.
  - replace (l ++ [60] ++ c'' ++ [62] ++ r) with ((l ++ [60] ++ c'') ++ [62] ++ r) in Hf by (now rewrite <- !app_assoc).
    apply follows_after1 in Hf; [|vis]. rewrite <- !app_assoc. destruct (phrase_none E l 60 (c'' ++ [62] ++ r ++ i) Hl) as [e H]; [after|].
    unfold name_addr, optional. use_phrase H. cbn [attempt bind].
    change (l ++ 60 :: c'' ++ [62] ++ r ++ i) with (l ++ [60] ++ c'' ++ [62] ++ r ++ i). rewrite (angle_addr_core E l c'' a' (r ++ i) i); auto. now apply skip_cfws_forward.
  - destruct (plain_not_named E c' a i Hc) as [e ->]. cbn [attempt]. unfold pmap. rewrite (addr_spec_forward E c' a); auto. now apply rfc_of_clear_addr_spec in Hc.
Qed.
(* nothing there *)
Lemma mailbox_none : forall E l d t, rfc_oCFWS l -> after_phrase d -> d <> 60 -> exists e, mailbox E (l ++ d :: t) = Err e.
Proof.
  intros E l d t Hl Hd H6. assert (F : follows l (d :: t)) by (apply starts_visible_follows; now apply after_phrase_starts).
  unfold mailbox. cbn [match_parsers]. unfold name_addr, optional. destruct (phrase_none E l d t Hl Hd) as [e ->]. cbn [attempt bind].
  destruct (angle_addr_none E l (d :: t)) as [e2 ->]; auto; [change ((60 =? d) = false); apply N.eqb_neq; congruence|]. cbn [attempt bind]. unfold pmap, addr_spec, local_part. cbn [match_parsers].
  destruct Hd as (V & D1 & D2 & D3). destruct (dot_atom_none E l d t) as [e3 ->]; auto. cbn [attempt].
  destruct (quoted_string_none l (d :: t)) as [e4 ->]; auto; [change ((34 =? d) = false); apply N.eqb_neq; congruence|]. cbn. eauto.
Qed.

(* ---- lists ---- *)
Lemma comma_forward : forall A (P : bytes -> A -> Prop) (p : parser A),
  (forall c a i, P c a -> follows c i -> plain_end i -> p (c ++ i) = Ok (i, a)) ->
  forall c l i, comma_list P c l -> follows c i -> plain_end i -> ends (fun c => 44 =? c) i ->
  exists a l' j, l = a :: l' /\ p (c ++ i) = Ok (j, a) /\ steps (prefixed p (bs ",")) j l' i /\ (length j <= length (c ++ i))%nat.
Proof.
  intros A P p Hp c l i H. induction H as [c a Hc|c a cs l Hc Hcs IH]; intros Hf Hi He.
  - exists a, [], i. split; [reflexivity|]. split; [now apply Hp|]. split; [|rewrite app_length; lia]. eapply steps_stop. unfold prefixed. change (bs ",") with [44].
    destruct (starts_with i [44]) eqn:X; [|reflexivity]. apply starts_with_spec in X as [t ->]. discriminate He.
  - change (bs ",") with [44] in Hf |- *. apply follows_after1 in Hf; [|vis]. destruct (IH Hf Hi He) as (a2 & l2 & j & -> & Hj & Hs & Hl). rewrite <- !app_assoc.
    exists a, (a2 :: l2), ([44] ++ cs ++ i). split; [reflexivity|]. split; [apply Hp; auto; [apply follows_head'; vis|split; reflexivity]|].
    split; [|rewrite !app_length in *; cbn [length]; lia]. eapply steps_more; [| |exact Hs].
    + unfold prefixed. change (bs ",") with [44]. rewrite starts_with_app. rewrite unchecked_from_app. cbn [bind]. exact Hj.
    + rewrite (app_length [44]). cbn [length]. lia.
Qed.
Lemma mailbox_list_forward : forall E c l i, clear_mailbox_list (f_mime E) (f_compatibility_fixes E) (encoded E) c l -> follows c i -> plain_end i -> ends (fun c => 44 =? c) i ->
  mailbox_list E (c ++ i) = Ok (i, l).
Proof.
  intros E c l i H Hf Hi He. destruct (comma_forward _ _ (mailbox E) (mailbox_forward E) c l i H Hf Hi He) as (a & l' & j & -> & Hj & Hs & _).
  unfold mailbox_list. rewrite Hj. cbn [bind]. rewrite (many_steps _ _ _ _ _ Hs). reflexivity.
Qed.

(* ---- groups ---- *)
Lemma clear_word_weaken : forall m (P Q : bytes -> bytes -> Prop) c v, (forall c v, P c v -> Q c v) -> clear_word m P c v -> clear_word m Q c v.
Proof. intros m P Q c v H [c' v' H1 H2|c' v' H1|w x c' v' H1 H2]; [now apply clear_atom|now apply clear_quoted|eapply clear_encoded; eauto]. Qed.
Lemma clear_phrase_weaken : forall m (P Q : bytes -> bytes -> Prop) c v, (forall c v, P c v -> Q c v) -> clear_phrase m P c v -> clear_phrase m Q c v.
Proof. intros m P Q c v H K. induction K; econstructor; eauto using clear_word_weaken. Qed.
Lemma name_clear : forall E c n, clear_phrase (f_mime E) (in_phrase (encoded E)) c n -> clear_phrase (f_mime E) (encoded E) c n.
Proof. intros E c n. apply clear_phrase_weaken. now intros ? ? [H _]. Qed.
(* a phrase and a colon is no address: whatever is read as its local part is not followed by "@" *)
Lemma local_of_word : forall E c v l2 d t, clear_word (f_mime E) (in_phrase (encoded E)) c v -> rfc_oCFWS l2 -> visible d -> d <> 40 -> d <> 46 -> d <> 64 ->
  (l2 = [] -> apart c (d :: t)) ->
  exists e, addr_spec E (c ++ l2 ++ d :: t) = Err e.
Proof.
  intros E c v l2 d t Hc Hl2 Hd D1 D2 D3 Hap. apply clear_word_split in Hc as (k & a & l & x & r & -> & Hl & Hx & Hr).
  apply wlead_oCFWS in Hl. assert (Hr' : rfc_oCFWS r) by (eapply wtrail_oCFWS; eauto). unfold addr_spec. rewrite <- !app_assoc.
  destruct (two_cfws_short r l2 (d :: t) Hr' Hl2) as (l' & Hl' & Hs & _); [now apply starts_visible_cons|].
  assert (G : forall v, exists e, (let* (i0, _) := tag (bs "@") "TAG ERROR: An address must have a `@`" (l' ++ d :: t) in @Ok (bytes * bytes) (i0, v)) = Err e /\ starts_with (l' ++ d :: t) (bs "@") = false).
  { intros w. assert (S : starts_with (l' ++ d :: t) (bs "@") = false).
    { assert (X : ends (fun c => 64 =? c) (l' ++ d :: t)) by (apply oCFWS_ends; try reflexivity; auto; intros _; change ((64 =? d) = false); apply N.eqb_neq; congruence).
      destruct (starts_with (l' ++ d :: t) (bs "@")) eqn:Y; auto. apply starts_with_spec in Y as [z Y]. rewrite Y in X. discriminate X. }
    rewrite tag_err by exact S. cbn. eauto. }
  assert (K : forall w, local_part E (l ++ x ++ r ++ l2 ++ d :: t) = Ok (l' ++ d :: t, w) -> exists e, addr_spec E (l ++ x ++ r ++ l2 ++ d :: t) = Err e).
  { intros w Hw. unfold addr_spec. rewrite Hw. cbn [bind]. destruct (G w) as (_ & _ & S). rewrite tag_err by exact S. cbn. eauto. }
  assert (A : chars1 rfc_atext x -> exists e, addr_spec E (l ++ x ++ r ++ l2 ++ d :: t) = Err e).
  { intros Hat. apply (K x). assert (D : dot_atom E (l ++ x ++ r ++ l2 ++ d :: t) = Ok (l' ++ d :: t, x)).
    { unfold dot_atom. rewrite (skip_cfws_forward l); [|auto|apply starts_visible_follows; eapply chars1_starts; [exact atext_visible|exact Hat]]. cbn [bind].
      assert (DT : rfc_dot_atom_text (f_compatibility_fixes E) x) by (rewrite <- (app_nil_r x); constructor; [exact Hat|constructor]).
      rewrite (dot_atom_text_forward E x).
      - cbn [bind]. rewrite Hs. reflexivity.
      - exact DT.
      - apply oCFWS_ends; try reflexivity; auto. intros ->. apply oCFWS_ends; try reflexivity; auto. intros ->. change (is_atext d = false).
        destruct (is_atext d) eqn:Y; auto. apply atext_spec in Y. exfalso. destruct Hat as [Hn0 Hat]. destruct (exists_last Hn0) as (z & y & ->).
        apply Forall_app in Hat as [_ Hat]. inversion Hat; subst. apply (Hap eq_refl (l ++ z) y d t); [now rewrite app_nil_r, <- app_assoc|reflexivity|auto].
      - apply oCFWS_ends; try reflexivity; auto. intros _. apply oCFWS_ends; try reflexivity; auto. intros _. change ((46 =? d) = false). apply N.eqb_neq. congruence. }
    unfold local_part. cbn [match_parsers]. rewrite D. reflexivity. }
  destruct Hx as [x Hat _|b v' Hb|x v' [[_ Hew] Hat]].
  - now apply A.
  - rewrite <- !app_assoc in *. apply (K v'). unfold local_part. cbn [match_parsers]. destruct (dot_atom_none E l 34 (b ++ [34] ++ r ++ l2 ++ d :: t)) as [e He]; [auto|vis|vis|reflexivity|].
    change (34 :: b ++ [34] ++ r ++ l2 ++ d :: t) with ([34] ++ b ++ [34] ++ r ++ l2 ++ d :: t) in He. rewrite He. cbn [attempt].
    rewrite (quoted_string_core l b v') by auto. rewrite Hs. reflexivity.
  - apply A. split; auto. destruct Hew. discriminate.
Qed.
Lemma clear_phrase_starts : forall E c n, clear_phrase (f_mime E) (in_phrase (encoded E)) c n ->
  exists l d t, c = l ++ d :: t /\ rfc_oCFWS l /\ visible d /\ d <> 40 /\ d <> 46 /\ d <> 64.
Proof.
  intros E c n H. assert (W : forall c v r, clear_word (f_mime E) (in_phrase (encoded E)) c v ->
    exists l d t, c ++ r = l ++ d :: t /\ rfc_oCFWS l /\ visible d /\ d <> 40 /\ d <> 46 /\ d <> 64).
  { clear c n H. intros c v r H. apply clear_word_split in H as (k & a & l & x & r' & -> & Hl & Hx & Hr). apply wlead_oCFWS in Hl. exists l.
    assert (A : chars1 rfc_atext x -> exists d t, (l ++ x ++ r') ++ r = l ++ d :: t /\ rfc_oCFWS l /\ visible d /\ d <> 40 /\ d <> 46 /\ d <> 64).
    { intros [Hn Ha]. destruct x as [|d t]; [congruence|]. inversion Ha as [|? ? Hd _]; subst. exists d, (t ++ r' ++ r). rewrite <- !app_assoc. split; [reflexivity|]. split; [auto|].
      split; [now apply atext_visible|]. apply atext_spec in Hd. repeat split; intros ->; discriminate Hd. }
    destruct Hx as [x Hat _|b v' Hb|x v' [[_ Hew] Hat]].
    - now apply A.
    - exists 34, (b ++ [34] ++ r' ++ r). rewrite <- !app_assoc. split; [reflexivity|]. split; [auto|]. repeat split; vis.
    - apply A. split; auto. destruct Hew. discriminate. }
  destruct H as [c v Hc|c v cs l Hc Ha Hcs].
  - destruct (W c v [] Hc) as (l & d & t & H). rewrite app_nil_r in H. eauto.
  - apply (W c v cs Hc).
Qed.
Lemma name_no_address : forall E c n t, clear_phrase (f_mime E) (in_phrase (encoded E)) c n -> exists e, addr_spec E (c ++ 58 :: t) = Err e.
Proof.
  intros E c n t H. destruct H as [c v Hc|c v cs l Hc Ha Hcs].
  - apply (local_of_word E c v [] 58 t Hc); try vis; [constructor|]. intros _ a x y b _ Hb [_ Hy]. injection Hb as <- _. apply atext_spec in Hy. discriminate Hy.
  - destruct (clear_phrase_starts E cs l Hcs) as (l2 & d & t2 & -> & Hl2 & D1 & D2 & D3 & D4). rewrite <- !app_assoc. cbn [app].
    apply (local_of_word E c v l2 d (t2 ++ 58 :: t) Hc Hl2 D1 D2 D3 D4). intros ->. intros a x y b E1 E2. injection E2 as <- _. apply (Ha a x d t2 E1). reflexivity.
Qed.
Lemma not_mailbox : forall E c n t, clear_phrase (f_mime E) (in_phrase (encoded E)) c n -> exists e, mailbox E (c ++ 58 :: t) = Err e.
Proof.
  intros E c n t H. unfold mailbox. cbn [match_parsers]. destruct (not_named E c n 58 t) as [e He]; [now apply name_clear|after|vis|]. use_at name_addr He. cbn [attempt].
  unfold pmap. destruct (name_no_address E c n t H) as [e2 He2]. use_at addr_spec He2. cbn. eauto.
Qed.
Lemma group_forward : forall E c1 n c2 l r i, clear_phrase (f_mime E) (encoded E) c1 n -> clear_group_list (f_mime E) (f_compatibility_fixes E) (encoded E) c2 l -> rfc_oCFWS r ->
  follows r i -> group E (c1 ++ [58] ++ c2 ++ [59] ++ r ++ i) = Ok (i, (n, l)).
Proof.
  intros E c1 n c2 l r i H1 H2 Hr Hf. unfold group. destruct (phrase_forward E c1 n [] (58 :: c2 ++ [59] ++ r ++ i)) as (l' & _ & _ & Hl' & H); auto; try reflexivity.
  { constructor. }
  { right. apply starts_visible_cons; vis. }
  rewrite (Hl' eq_refl) in H. use_phrase H. cbn [app bind]. change (58 :: ?x) with ([58] ++ x). change (bs ":") with [58]. rewrite tag_app. cbn [bind].
  change (59 :: r ++ i) with ([59] ++ r ++ i). change (bs ";") with [59].
  assert (M : exists o, attempt (mailbox_list E (c2 ++ [59] ++ r ++ i)) (fun ra => Ok ra)
     (attempt (cfws (c2 ++ [59] ++ r ++ i)) (fun '(i', _) => Ok (i', [])) (Ok (c2 ++ [59] ++ r ++ i, []))) = Ok ([59] ++ r ++ i, o) /\ o = l).
  { exists l. split; auto. destruct H2 as [c l H2|c H2].
    - rewrite (mailbox_list_forward E c l); auto; [apply follows_head'; vis|split; reflexivity|reflexivity].
    - destruct (mailbox_none E c 59 (r ++ i)) as [e He]; [auto|after|vis|]. unfold mailbox_list. change (59 :: r ++ i) with ([59] ++ r ++ i) in He. rewrite He. cbn [bind attempt].
      destruct (ocfws_before c 59 (r ++ i) H2) as [o Ho]; [vis|vis|]. change (59 :: r ++ i) with ([59] ++ r ++ i) in Ho. unfold optional in Ho.
      destruct (cfws (c ++ [59] ++ r ++ i)) as [[j w]|e2|k]; cbn [attempt] in *; [|congruence|discriminate].
      injection Ho as -> _. reflexivity. }
  destruct M as (o & M & ->). match goal with |- context [attempt ?a ?b ?c] => match type of M with _ = ?r => replace (attempt a b c) with r by (symmetry; exact M) end end. cbn [bind]. rewrite tag_app. cbn [bind].
  destruct (ocfws_forward r i Hr Hf) as [o ->]. reflexivity.
Qed.
Lemma address_forward : forall E c a i, clear_address (f_mime E) (f_compatibility_fixes E) (encoded E) c a -> follows c i -> plain_end i -> address E (c ++ i) = Ok (i, a).
Proof.
  intros E c a i [c' m H|c1 n c2 l r H1 H2 Hr] Hf Hi; unfold address.
  - rewrite (mailbox_forward E c' m) by auto. reflexivity.
  - replace (c1 ++ [58] ++ c2 ++ [59] ++ r) with ((c1 ++ [58] ++ c2) ++ [59] ++ r) in Hf by (now rewrite <- !app_assoc).
    apply follows_after1 in Hf; [|vis]. rewrite <- !app_assoc. destruct (not_mailbox E c1 n (c2 ++ [59] ++ r ++ i) H1) as [e He].
    change (58 :: c2 ++ [59] ++ r ++ i) with ([58] ++ c2 ++ [59] ++ r ++ i) in He. rewrite He. cbn [attempt].
    rewrite (group_forward E c1 n c2 l r i); auto. now apply name_clear.
Qed.
Lemma address_list_forward : forall E c l i, clear_address_list (f_mime E) (f_compatibility_fixes E) (encoded E) c l -> follows c i -> plain_end i -> ends (fun c => 44 =? c) i ->
  address_list E (c ++ i) = Ok (i, l).
Proof.
  intros E c l i H Hf Hi He. destruct (comma_forward _ _ (address E) (address_forward E) c l i H Hf Hi He) as (a & l' & j & -> & Hj & Hs & _).
  unfold address_list. rewrite Hj. cbn [bind]. rewrite (many_steps _ _ _ _ _ Hs). reflexivity.
Qed.

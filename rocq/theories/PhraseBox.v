(* Mailboxes, groups and their lists with encoded words: the parser against PhraseSpec.v. *)
From Coq Require Import Lia ZifyBool ZifyNat ZifyN.
From Verif Require Import Base Utf8 Combinators CharSets Whitespace QuotedString Common EncodedWord Address Time Fields Rfc5322 Rfc2047 CodecSpec RfcFields Post SoundBase SoundAddr SoundFields Steps Complete CompleteFields
  Forward ForwardText ForwardAddr ForwardList Writers KeenFacts PhraseSpec PhraseFacts.
Local Open Scope N_scope.

(* ---- addresses: the parser succeeds in front of any of them ---- *)
Lemma many_not_err : forall A (p : parser A) i e, many p i <> Err e.
Proof.
  intros A p i e. unfold many. generalize (Datatypes.S (length i)). intros n. revert i. induction n as [|n IH]; intros i H; cbn [many_fuel] in H; [discriminate|].
  destruct (p i) as [[r a]|e'|k]; cbn [attempt] in H; try discriminate. destruct (many_fuel n p r) as [[r' l]|e'|k] eqn:M; cbn [bind] in H; try discriminate. injection H as ->. now apply IH in M.
Qed.
Lemma skip_total : forall i, exists j, skip_cfws i = Ok j.
Proof. intros i. unfold skip_cfws. pose proof (sound_cfws never i) as S. destruct (cfws i) as [[r v]|e|k]; cbn [attempt]; [eauto|eauto|destruct S]. Qed.
Lemma dot_atom_some : forall E l x t, rfc_oCFWS l -> rfc_atext x -> exists r v, dot_atom E (l ++ x :: t) = Ok (r, v).
Proof.
  intros E l x t Hl Hx. pose proof (sound_dot_atom E never (l ++ x :: t)) as P. destruct (dot_atom E (l ++ x :: t)) as [[r v]|e|k] eqn:D; [eauto|exfalso|destruct P]. unfold dot_atom in D.
  rewrite (skip_cfws_forward l) in D; [|exact Hl|apply follows_head'; [now apply atext_visible|intros ->; apply atext_spec in Hx; discriminate Hx]]. cbn [bind] in D. unfold dot_atom_text in D.
  pose proof (post_take_while1 never is_atext (x :: t) atext_ascii) as T. destruct (take_while1 is_atext (x :: t)) as [[r v]|e'|k] eqn:W; cbn [bind] in D; [|unfold take_while1 in W|destruct T].
  - unfold collect_many in D. destruct (many (dot_atom_step E) r) as [[r' v']|e'|k] eqn:M; cbn [bind] in D; try discriminate; [|now apply many_not_err in M].
    destruct (skip_total r') as [j J]. rewrite J in D. discriminate.
  - apply atext_spec in Hx. rewrite Hx in W. cbn [negb] in W. destruct (span is_atext (x :: t)) as [a b] eqn:Q. apply span_spec in Q as (_ & Ha & _). rewrite str_unchecked_ascii in W by (eapply Forall_impl; [|exact Ha]; exact atext_ascii). discriminate.
Qed.
Lemma addr_spec_some : forall E c a z, rfc_addr_spec (f_compatibility_fixes E) c a -> exists r b, addr_spec E (c ++ z) = Ok (r, b).
Proof.
  intros E c a z [c1 l c2 d H1 H2]. unfold addr_spec. rewrite <- !app_assoc.
  rewrite (local_part_forward E c1 l); [|auto|apply follows_head'; vis|split; reflexivity]. cbn [bind]. change (bs "@") with [64]. rewrite tag_app. cbn [bind].
  assert (D : exists r v, domain E (c2 ++ z) = Ok (r, v)).
  { unfold domain. cbn [match_parsers]. destruct H2 as [cc v [g t r Hg [a0 t' Ha Ht] Hr]|cc v [g b v' r Hg Hb Hr]]; rewrite <- !app_assoc.
    - destruct Ha as [Hn Ha]. destruct a0 as [|x a0]; [congruence|]. apply Forall_inv in Ha. destruct (dot_atom_some E g x (a0 ++ t' ++ r ++ z) Hg Ha) as (j & w & D).
      change ((x :: a0) ++ t' ++ r ++ z) with (x :: a0 ++ t' ++ r ++ z). match goal with |- context [dot_atom E ?y] => replace (dot_atom E y) with (@Ok (bytes * bytes) (j, w)) by (symmetry; exact D) end. cbn [attempt]. eauto.
    - destruct (dot_atom_none E g 91 (b ++ [93] ++ r ++ z)) as [e He]; [auto|vis|vis|reflexivity|]. change (91 :: b ++ [93] ++ r ++ z) with ([91] ++ b ++ [93] ++ r ++ z) in He. rewrite He. cbn [attempt].
      destruct (skip_total (r ++ z)) as [j J]. rewrite (domain_literal_core g b v' (r ++ z) j Hg Hb J). cbn [attempt]. eauto. }
  destruct D as (r & v & ->). cbn [bind]. eauto.
Qed.
Lemma angle_addr_some : forall E c a z, rfc_angle_addr (f_compatibility_fixes E) c a -> exists r b, angle_addr E (c ++ z) = Ok (r, b).
Proof.
  intros E c a z [l c' a' r Hl Hc Hr]. rewrite <- !app_assoc. destruct (skip_total (r ++ z)) as [j J]. rewrite (angle_addr_core E l c' a' (r ++ z) j Hl Hc J). eauto.
Qed.
Lemma addr_spec_starts : forall b c a, rfc_addr_spec b c a -> exists l d t, c = l ++ d :: t /\ rfc_oCFWS l /\ visible d /\ d <> 40 /\ d <> 60.
Proof.
  intros b c a [c1 l c2 d H1 H2]. destruct H1 as [cc v [g t r Hg [x t' [Hn Ha] Ht] Hr]|cc v [g q v' r Hg Hq Hr]]; rewrite <- !app_assoc.
  - destruct x as [|x a']; [congruence|]. apply Forall_inv in Ha. exists g, x. eexists. split; [reflexivity|]. split; [exact Hg|]. split; [now apply atext_visible|]. apply atext_spec in Ha. split; intros ->; discriminate Ha.
  - exists g, 34. eexists. split; [reflexivity|]. split; [exact Hg|]. split; [vis|]. split; discriminate.
Qed.

(* ---- lists ---- *)
Lemma prefixed_ok : forall A (p : parser A) d i, prefixed p [d] (d :: i) = p i.
Proof. intros A p d i. unfold prefixed. change (d :: i) with ([d] ++ i). rewrite starts_with_app. now rewrite unchecked_from_app. Qed.
Lemma prefixed_back : forall A (p : parser A) d i x, prefixed p [d] i = Ok x -> exists j, i = d :: j /\ p j = Ok x.
Proof. intros A p d i x H. unfold prefixed in H. destruct (starts_with i [d]) eqn:S; [|discriminate]. apply starts_with_spec in S as [j ->]. rewrite unchecked_from_app in H. cbn [bind] in H. exists j. auto. Qed.
Lemma prefixed_none : forall A (p : parser A) d i, ends (fun c => d =? c) i -> exists e, prefixed p [d] i = Err e.
Proof. intros A p d i H. unfold prefixed. destruct (starts_with i [d]) eqn:S; [|eauto]. apply starts_with_spec in S as [j ->]. cbn in H. rewrite N.eqb_refl in H. discriminate. Qed.
Lemma comma_read_forward : forall A (P : bytes -> bytes -> A -> Prop) (p : parser A) rest,
  (forall rest c a, P rest c a -> follows c rest -> plain_end rest -> p (c ++ rest) = Ok (rest, a)) ->
  forall c l, comma_read P rest c l -> follows c rest -> plain_end rest -> ends (fun c => 44 =? c) rest ->
  exists a l' j, l = a :: l' /\ p (c ++ rest) = Ok (j, a) /\ steps (prefixed p (bs ",")) j l' rest /\ (length j <= length (c ++ rest))%nat.
Proof.
  intros A P p rest Hp c l H. induction H as [c a Hc|c a cs l Hc Hcs IH]; intros Hf Hi He.
  - exists a, [], rest. split; [reflexivity|]. split; [now apply Hp|]. split; [|rewrite app_length; lia]. destruct (prefixed_none _ p 44 rest He) as [e X]. eapply steps_stop; exact X.
  - change (bs ",") with [44] in *. apply follows_after1 in Hf; [|vis]. destruct (IH Hf Hi He) as (a2 & l2 & j & -> & Hj & Hs & Hl). rewrite <- !app_assoc.
    exists a, (a2 :: l2), ([44] ++ cs ++ rest). split; [reflexivity|]. split; [apply Hp; auto; [apply follows_head'; vis|split; reflexivity]|].
    split; [|rewrite !app_length in *; cbn [length]; lia]. eapply steps_more; [| |exact Hs].
    + cbn [app]. rewrite prefixed_ok. exact Hj.
    + rewrite (app_length [44]). cbn [length]. lia.
Qed.
Lemma comma_read_back : forall A (P : bytes -> bytes -> A -> Prop) (p : parser A),
  (forall i r a, p i = Ok (r, a) -> exists c, i = c ++ r /\ P r c a) ->
  forall j l rest, steps (prefixed p (bs ",")) j l rest -> forall i a, p i = Ok (j, a) -> exists c, i = c ++ rest /\ comma_read P rest c (a :: l).
Proof.
  intros A P p Hp j l rest H. change (bs ",") with [44] in H. induction H as [j e H|j r b l rest H _ Hs IH]; intros i a Ha.
  - destruct (Hp _ _ _ Ha) as (c & -> & Hc). exists c. split; [reflexivity|]. now constructor.
  - destruct (prefixed_back _ _ _ _ _ H) as (j' & -> & Hb). destruct (IH _ _ Hb) as (cs & -> & Hcs). destruct (Hp _ _ _ Ha) as (c & -> & Hc). exists (c ++ bs "," ++ cs). change (bs ",") with [44]. split; [now rewrite <- !app_assoc|]. now constructor.
Qed.
Lemma prefixed_shorter : forall A (p : parser A) d, (forall i r a, p i = Ok (r, a) -> (length r < length i)%nat) -> forall i r a, prefixed p [d] i = Ok (r, a) -> (length r < length i)%nat.
Proof. intros A p d H i r a X. destruct (prefixed_back _ _ _ _ _ X) as (j & -> & Y). apply H in Y. cbn [length]. lia. Qed.

Section Boxes.
Variable E : env.
Hypothesis HM : f_mime E = true.
Notation tc := (textcode E).
Notation compat := (f_compatibility_fixes E).

(* ---- mailboxes ---- *)
Lemma read_before : forall k c n l d t, read_phrase tc (l ++ d :: t) k c n -> rfc_oCFWS l -> after_phrase d ->
  exists l', rfc_oCFWS l' /\ phrase E (c ++ l ++ d :: t) = Ok (l' ++ d :: t, n).
Proof.
  intros k c n l d t Hc Hl Hd. destruct (read_forward E HM k c n l (d :: t)) as (l' & H1 & _ & _ & H2); auto.
  - right. now apply after_phrase_starts.
  - apply Hd.
  - now apply after_phrase_quote.
  - eauto.
Qed.
Lemma named_some : forall k c1 n c2 a z, read_phrase tc (c2 ++ z) k c1 n -> rfc_angle_addr compat c2 a -> exists x, name_addr E (c1 ++ c2 ++ z) = Ok x.
Proof.
  intros k c1 n c2 a z Hp Ha. destruct Ha as [l c a r Hl Hc Hr]. rewrite <- !app_assoc in *. destruct (read_before k c1 n l 60 (c ++ [62] ++ r ++ z) Hp Hl) as (l' & Hl' & H); [after|].
  unfold name_addr, optional. use_phrase H. cbn [attempt bind]. destruct (skip_total (r ++ z)) as [j J]. pose proof (angle_addr_core E l' c a (r ++ z) j Hl' Hc J) as X. use_at angle_addr X. cbn [bind]. eauto.
Qed.
Lemma name_addr_back : forall i r m, name_addr E i = Ok (r, m) -> exists c, i = c ++ r /\ read_mailbox tc compat r c m.
Proof.
  intros i r m H. unfold name_addr, optional in H. destruct (phrase E i) as [[i1 n]|e|k] eqn:P; cbn [attempt bind] in H; try discriminate.
  - destruct (read_back E HM _ _ _ P) as (k & c1 & -> & Hc & _). pose proof (sound_angle_addr E never i1) as S. destruct (angle_addr E i1) as [[i2 a]|e|k']; cbn [bind] in H; try discriminate. injection H as -> <-. destruct S as (c2 & -> & S).
    exists (c1 ++ c2). split; [now rewrite <- app_assoc|]. eapply read_named; eauto.
  - pose proof (sound_angle_addr E never i) as S. destruct (angle_addr E i) as [[i2 a]|e'|k']; cbn [bind] in H; try discriminate. injection H as -> <-. destruct S as (c2 & -> & S). exists c2. split; [reflexivity|now apply read_angle].
Qed.
Lemma name_addr_no_crash : forall i k, name_addr E i <> Crash k.
Proof.
  intros i k H. unfold name_addr in H. pose proof (post_optional _ never (phrase E) i _ (sound_phrase E never i)) as P. destruct (optional (phrase E) i) as [[i1 n]|e|k']; cbn [bind] in H; try discriminate; [|destruct P].
  pose proof (sound_angle_addr E never i1) as S. destruct (angle_addr E i1) as [[i2 a]|e|k']; cbn [bind] in H; try discriminate. destruct S.
Qed.
Lemma mailbox_back : forall i r m, mailbox E i = Ok (r, m) -> exists c, i = c ++ r /\ read_mailbox tc compat r c m.
Proof.
  intros i r m H. unfold mailbox in H. cbn [match_parsers] in H. destruct (name_addr E i) as [[i1 x]|e|k] eqn:N; cbn [attempt] in H; try discriminate.
  - injection H as -> ->. now apply name_addr_back.
  - unfold pmap in H. pose proof (sound_addr_spec E never i) as S. destruct (addr_spec E i) as [[i1 a]|e'|k]; cbn [bind attempt] in H; try discriminate. injection H as -> <-. destruct S as (c & -> & S). exists c. split; [reflexivity|].
    apply read_plain; [exact S|]. intros k c1 n c2 a' z X Hp Ha. rewrite X in N. destruct (named_some k c1 n c2 a' z Hp Ha) as [x Y]. congruence.
Qed.
Lemma mailbox_read_forward : forall rest c m, read_mailbox tc compat rest c m -> follows c rest -> plain_end rest -> mailbox E (c ++ rest) = Ok (rest, m).
Proof.
  intros rest c m H Hf Hi. unfold mailbox. cbn [match_parsers]. destruct H as [k c1 n c2 a Hp Ha|c a [l c'' a' r Hl Hc Hr]|c a Hc HN].
  - destruct Ha as [l c' a' r Hl Hc Hr]. replace (c1 ++ l ++ [60] ++ c' ++ [62] ++ r) with ((c1 ++ l ++ [60] ++ c') ++ [62] ++ r) in Hf by (now rewrite <- !app_assoc).
    apply follows_after1 in Hf; [|vis]. rewrite <- !app_assoc in *. destruct (read_before k c1 n l 60 (c' ++ [62] ++ r ++ rest) Hp Hl) as (l' & Hl' & H); [after|].
    unfold name_addr, optional. use_phrase H. cbn [attempt bind].
    change (l' ++ 60 :: c' ++ [62] ++ r ++ rest) with (l' ++ [60] ++ c' ++ [62] ++ r ++ rest). rewrite (angle_addr_core E l' c' a' (r ++ rest) rest); auto. now apply skip_cfws_forward.
  - replace (l ++ [60] ++ c'' ++ [62] ++ r) with ((l ++ [60] ++ c'') ++ [62] ++ r) in Hf by (now rewrite <- !app_assoc).
    apply follows_after1 in Hf; [|vis]. rewrite <- !app_assoc. destruct (phrase_none E l 60 (c'' ++ [62] ++ r ++ rest) Hl) as [e H]; [after|].
    unfold name_addr, optional. use_phrase H. cbn [attempt bind].
    change (l ++ 60 :: c'' ++ [62] ++ r ++ rest) with (l ++ [60] ++ c'' ++ [62] ++ r ++ rest). rewrite (angle_addr_core E l c'' a' (r ++ rest) rest); auto. now apply skip_cfws_forward.
  - destruct (name_addr E (c ++ rest)) as [[r x]|e|k] eqn:N.
    + exfalso. unfold name_addr, optional in N. destruct (phrase E (c ++ rest)) as [[i1 n]|e|k] eqn:P; cbn [attempt bind] in N; try discriminate.
      * destruct (read_back E HM _ _ _ P) as (k & c1 & X & Hp & _). pose proof (sound_angle_addr E never i1) as S. destruct (angle_addr E i1) as [[i2 a']|e|k']; cbn [bind] in N; try discriminate. destruct S as (c2 & -> & S).
        exact (HN k c1 n c2 a' i2 X Hp S).
      * destruct (addr_spec_starts _ _ _ Hc) as (l & d & t & -> & Hl & D1 & D2 & D3). rewrite <- app_assoc in N. cbn [app] in N. destruct (angle_addr_none E l (d :: t ++ rest)) as [e' X]; [exact Hl|now apply follows_head'|change ((60 =? d) = false); apply N.eqb_neq; congruence|].
        rewrite X in N. discriminate.
    + cbn [attempt]. unfold pmap. rewrite (addr_spec_forward E c a); auto.
    + exfalso. now apply name_addr_no_crash in N.
Qed.
Lemma mailbox_shorter : forall i r m, mailbox E i = Ok (r, m) -> (length r < length i)%nat.
Proof.
  intros i r m H. pose proof (sound_mailbox E never i) as S. rewrite H in S. destruct S as (c & -> & S). apply mailbox_nonempty in S. rewrite app_length. destruct c; [congruence|cbn; lia].
Qed.

(* ---- lists of them ---- *)
Lemma mailboxes_forward : forall rest c l, read_mailboxes tc compat rest c l -> follows c rest -> plain_end rest -> ends (fun c => 44 =? c) rest -> mailbox_list E (c ++ rest) = Ok (rest, l).
Proof.
  intros rest c l H Hf Hi He. destruct (comma_read_forward _ _ (mailbox E) rest mailbox_read_forward c l H Hf Hi He) as (a & l' & j & -> & Hj & Hs & _).
  unfold mailbox_list. rewrite Hj. cbn [bind]. rewrite (many_steps _ _ _ _ _ Hs). reflexivity.
Qed.
Lemma mailboxes_back : forall i r l, mailbox_list E i = Ok (r, l) -> exists c, i = c ++ r /\ read_mailboxes tc compat r c l.
Proof.
  intros i r l H. unfold mailbox_list in H. destruct (mailbox E i) as [[j m]|e|k] eqn:M; cbn [bind] in H; try discriminate. destruct (many (prefixed (mailbox E) (bs ",")) j) as [[j2 l2]|e|k] eqn:S; cbn [bind] in H; try discriminate. injection H as -> <-.
  apply many_inv in S; [|exact (prefixed_shorter _ _ 44 mailbox_shorter)]. exact (comma_read_back _ _ _ mailbox_back _ _ _ S _ _ M).
Qed.

(* ---- groups ---- *)
Lemma mailbox_list_no_crash : forall i k, mailbox_list E i <> Crash k.
Proof. intros i k H. pose proof (sound_mailbox_list E never i) as S. rewrite H in S. exact S. Qed.
Lemma members_forward : forall c2 l r, read_members tc compat (bs ";" ++ r) c2 l ->
  attempt (mailbox_list E (c2 ++ bs ";" ++ r)) (fun ra => Ok ra) (attempt (cfws (c2 ++ bs ";" ++ r)) (fun '(i', _) => Ok (i', [])) (Ok (c2 ++ bs ";" ++ r, []))) = Ok (bs ";" ++ r, l).
Proof.
  intros c2 l r H2. change (bs ";") with [59] in *. destruct H2 as [c l H2|c H2].
  - rewrite (mailboxes_forward ([59] ++ r) c l); auto; [apply follows_head'; vis|split; reflexivity|reflexivity].
  - destruct (mailbox_none E c 59 r) as [e He]; [auto|after|vis|]. unfold mailbox_list. change (59 :: r) with ([59] ++ r) in He. rewrite He. cbn [bind attempt].
    destruct (ocfws_before c 59 r H2) as [o Ho]; [vis|vis|]. change (59 :: r) with ([59] ++ r) in Ho. unfold optional in Ho.
    destruct (cfws (c ++ [59] ++ r)) as [[j w]|e2|k]; cbn [attempt] in *; [|congruence|discriminate].
    injection Ho as -> _. reflexivity.
Qed.
Lemma group_read_forward : forall rest k c1 n c2 l r, read_phrase tc (bs ":" ++ c2 ++ bs ";" ++ r ++ rest) k c1 n -> read_members tc compat (bs ";" ++ r ++ rest) c2 l -> rfc_oCFWS r -> follows r rest ->
  group E (c1 ++ bs ":" ++ c2 ++ bs ";" ++ r ++ rest) = Ok (rest, (n, l)).
Proof.
  intros rest k c1 n c2 l r H1 H2 Hr Hf. unfold group. destruct (read_forward E HM k c1 n [] (bs ":" ++ c2 ++ bs ";" ++ r ++ rest) H1) as (l' & _ & _ & Hl' & H); [constructor|right; apply (starts_visible_cons 58); vis|reflexivity|reflexivity|].
  rewrite (Hl' eq_refl) in H. cbn [app] in H. use_phrase H. cbn [bind]. change (58 :: c2 ++ bs ";" ++ r ++ rest) with (bs ":" ++ c2 ++ bs ";" ++ r ++ rest). rewrite tag_app. cbn [bind]. match goal with |- context [attempt (mailbox_list E ?x) ?f ?g] => replace (attempt (mailbox_list E x) f g) with (@Ok (bytes * list mailbox_t) (bs ";" ++ r ++ rest, l)) by (symmetry; exact (members_forward c2 l (r ++ rest) H2)) end. cbn [bind]. rewrite tag_app. cbn [bind].
  destruct (ocfws_forward r rest Hr Hf) as [o ->]. reflexivity.
Qed.
Lemma group_not_named : forall k c1 n t, read_phrase tc (bs ":" ++ t) k c1 n -> exists e, name_addr E (c1 ++ bs ":" ++ t) = Err e.
Proof.
  intros k c1 n t H. destruct (read_forward E HM k c1 n [] (bs ":" ++ t) H) as (l' & _ & _ & Hl' & H'); [constructor|right; apply (starts_visible_cons 58); vis|reflexivity|reflexivity|].
  rewrite (Hl' eq_refl) in H'. cbn [app] in H'. unfold name_addr, optional. use_phrase H'. cbn [attempt bind]. destruct (angle_addr_none E [] (58 :: t)) as [e X]; [constructor|apply follows_head'; vis|reflexivity|]. cbn [app] in X. use_at angle_addr X. cbn [bind]. eauto.
Qed.
Lemma address_read_forward : forall rest c a, read_address tc compat rest c a -> follows c rest -> plain_end rest -> address E (c ++ rest) = Ok (rest, a).
Proof.
  intros rest c a H Hf Hi. unfold address. destruct H as [c m H|k c1 n c2 l r H1 H2 Hr HN].
  - rewrite (mailbox_read_forward rest c m) by auto. reflexivity.
  - assert (Hf' : follows r rest). { replace (c1 ++ bs ":" ++ c2 ++ bs ";" ++ r) with ((c1 ++ bs ":" ++ c2) ++ bs ";" ++ r) in Hf by (now rewrite <- !app_assoc). change (bs ";") with [59] in Hf. apply follows_after1 in Hf; [exact Hf|vis]. }
    rewrite <- !app_assoc in *. assert (M : exists e, mailbox E (c1 ++ bs ":" ++ c2 ++ bs ";" ++ r ++ rest) = Err e).
    { unfold mailbox. cbn [match_parsers]. destruct (group_not_named k c1 n _ H1) as [e ->]. cbn [attempt]. unfold pmap. pose proof (sound_addr_spec E never (c1 ++ bs ":" ++ c2 ++ bs ";" ++ r ++ rest)) as S.
      destruct (addr_spec E (c1 ++ bs ":" ++ c2 ++ bs ";" ++ r ++ rest)) as [[z b]|e'|k']; cbn [bind attempt]; [exfalso|eauto|destruct S]. destruct S as (c & X & S). exact (HN c b z X S). }
    destruct M as [e ->]. cbn [attempt]. rewrite (group_read_forward rest k c1 n c2 l r H1 H2 Hr Hf'). reflexivity.
Qed.
Lemma members_back : forall i r l, attempt (mailbox_list E i) (fun ra => Ok ra) (attempt (cfws i) (fun '(i', _) => Ok (i', [])) (Ok (i, []))) = Ok (r, l) -> exists c, i = c ++ r /\ read_members tc compat r c l.
Proof.
  intros i r l H. destruct (mailbox_list E i) as [[j m]|e|k] eqn:M; cbn [attempt] in H; try discriminate.
  - injection H as -> ->. destruct (mailboxes_back _ _ _ M) as (c & -> & Hc). exists c. split; [reflexivity|now constructor].
  - pose proof (sound_cfws never i) as S. destruct (cfws i) as [[j w]|e'|k]; cbn [attempt] in H; try discriminate; injection H as -> <-.
    + destruct S as (c & -> & S). exists c. split; [reflexivity|]. apply read_members_none. now constructor.
    + exists []. split; [reflexivity|]. apply read_members_none. constructor.
Qed.
Lemma group_back : forall i r n l, group E i = Ok (r, (n, l)) -> exists k c1 c2 w, i = c1 ++ bs ":" ++ c2 ++ bs ";" ++ w ++ r /\ read_phrase tc (bs ":" ++ c2 ++ bs ";" ++ w ++ r) k c1 n /\ read_members tc compat (bs ";" ++ w ++ r) c2 l /\ rfc_oCFWS w.
Proof.
  intros i r n l H. unfold group in H. destruct (phrase E i) as [[i1 n']|e|k] eqn:P; cbn [bind] in H; try discriminate. destruct (read_back E HM _ _ _ P) as (k & c1 & -> & Hc1 & _).
  pose proof (post_tag never (bs ":") "TAG ERROR: A group display name must be followed by a `:`." i1) as T. destruct (tag (bs ":") "TAG ERROR: A group display name must be followed by a `:`." i1) as [[i2 u]|e|k'] eqn:T1; cbn [bind] in H; try discriminate. destruct T as (x & -> & ->).
  destruct (attempt (mailbox_list E i2) (fun ra => Ok ra) (attempt (cfws i2) (fun '(i', _) => Ok (i', [])) (Ok (i2, [])))) as [[i3 l']|e|k'] eqn:M; cbn [bind] in H; try discriminate. destruct (members_back _ _ _ M) as (c2 & -> & Hc2).
  pose proof (post_tag never (bs ";") "TAG ERROR: A group mailbox list must be closed by a `;`." i3) as T'. destruct (tag (bs ";") "TAG ERROR: A group mailbox list must be closed by a `;`." i3) as [[i4 u']|e|k'] eqn:T2; cbn [bind] in H; try discriminate. destruct T' as (x & -> & ->).
  pose proof (sound_ocfws never i4) as O. destruct (optional cfws i4) as [[i5 o]|e|k']; cbn [bind] in H; try discriminate. injection H as -> -> ->. destruct O as (w & -> & O). exists k, c1, c2, w. auto.
Qed.
Lemma address_back : forall i r a, address E i = Ok (r, a) -> exists c, i = c ++ r /\ read_address tc compat r c a.
Proof.
  intros i r a H. unfold address in H. destruct (mailbox E i) as [[j m]|e|k] eqn:M; cbn [attempt] in H; try discriminate.
  - injection H as -> <-. destruct (mailbox_back _ _ _ M) as (c & -> & Hc). exists c. split; [reflexivity|now constructor].
  - destruct (group E i) as [[j [n l]]|e'|k] eqn:G; cbn [attempt] in H; try discriminate. injection H as -> <-. destruct (group_back _ _ _ _ G) as (k & c1 & c2 & w & -> & H1 & H2 & H3). exists (c1 ++ bs ":" ++ c2 ++ bs ";" ++ w). split; [now rewrite <- !app_assoc|].
    eapply read_address_group; eauto. intros c a z X Ha. unfold mailbox in M. cbn [match_parsers] in M. destruct (name_addr E (c1 ++ bs ":" ++ c2 ++ bs ";" ++ w ++ r)) as [[j m]|e2|k']; cbn [attempt] in M; try discriminate.
    rewrite X in M. destruct (addr_spec_some E c a z Ha) as (y & b & Y). unfold pmap in M. rewrite Y in M. discriminate.
Qed.
Lemma address_shorter : forall i r m, address E i = Ok (r, m) -> (length r < length i)%nat.
Proof.
  intros i r a H. unfold address in H. destruct (mailbox E i) as [[j m]|e|k] eqn:M; cbn [attempt] in H; try discriminate.
  - injection H as -> <-. exact (mailbox_shorter _ _ _ M).
  - destruct (group E i) as [[j [n l]]|e'|k] eqn:G; cbn [attempt] in H; try discriminate. injection H as -> <-. destruct (group_back _ _ _ _ G) as (k & c1 & c2 & w & -> & _). change (bs ":") with [58]. rewrite !app_length. cbn [length]. lia.
Qed.
Lemma addresses_forward : forall rest c l, read_addresses tc compat rest c l -> follows c rest -> plain_end rest -> ends (fun c => 44 =? c) rest -> address_list E (c ++ rest) = Ok (rest, l).
Proof.
  intros rest c l H Hf Hi He. destruct (comma_read_forward _ _ (address E) rest address_read_forward c l H Hf Hi He) as (a & l' & j & -> & Hj & Hs & _).
  unfold address_list. rewrite Hj. cbn [bind]. rewrite (many_steps _ _ _ _ _ Hs). reflexivity.
Qed.
Lemma addresses_back : forall i r l, address_list E i = Ok (r, l) -> exists c, i = c ++ r /\ read_addresses tc compat r c l.
Proof.
  intros i r l H. unfold address_list in H. destruct (address E i) as [[j m]|e|k] eqn:M; cbn [bind] in H; try discriminate. destruct (many (prefixed (address E) (bs ",")) j) as [[j2 l2]|e|k] eqn:S; cbn [bind] in H; try discriminate. injection H as -> <-.
  apply many_inv in S; [|exact (prefixed_shorter _ _ 44 address_shorter)]. exact (comma_read_back _ _ _ address_back _ _ _ S _ _ M).
Qed.
Lemma bcc_back : forall i r l, bcc_value E i = Ok (r, l) -> exists c, i = c ++ r /\ read_bcc tc compat r c l.
Proof.
  intros i r l H. unfold bcc_value in H. destruct (address_list E i) as [[j m]|e|k] eqn:M; cbn [attempt] in H; try discriminate.
  - injection H as -> ->. destruct (addresses_back _ _ _ M) as (c & -> & Hc). exists c. split; [reflexivity|now constructor].
  - pose proof (sound_cfws never i) as S. destruct (cfws i) as [[j w]|e'|k]; cbn [attempt] in H; try discriminate. injection H as -> <-. destruct S as (c & -> & S). exists c. split; [reflexivity|]. now apply read_bcc_none.
Qed.
End Boxes.

(* C41: headers that conform to RFC 5322 are recognised, with the same value. *)
From Coq Require Import Lia ZifyBool ZifyNat ZifyN Permutation.
From Verif Require Import Base Utf8 CharSets Combinators Whitespace Common Time Address Percent MimeFields Fields Message Email Envs EnvOk
  Rfc5322 Rfc2047 Post CodecSpec RfcFields SoundBase TagNoCase EmailSpec Complete CompleteFields Forward ForwardText ForwardFields HeaderFacts Writers WriteFacts WriteAddr LimitFacts RegularSpec.
Local Open Scope N_scope.

(* ---- texts without "=?" ---- *)
Lemma unmarked_sub : forall m x c y, unmarked m (x ++ c ++ y) -> unmarked m c.
Proof. intros m x c y H Hm a b ->. apply (H Hm (x ++ a) (b ++ y)). now rewrite <- !app_assoc. Qed.
Lemma unmarked_l : forall m c y, unmarked m (c ++ y) -> unmarked m c.
Proof. intros m c y. apply (unmarked_sub m [] c y). Qed.
Lemma unmarked_r : forall m x c, unmarked m (x ++ c) -> unmarked m c.
Proof. intros m x c H. apply (unmarked_sub m x c []). now rewrite app_nil_r. Qed.
Lemma unmarked_not_encoded : forall m v, unmarked m v -> not_encoded m v.
Proof. intros m v H Hm t ->. exact (H Hm [] t eq_refl). Qed.

(* ---- where an atom can touch another one ---- *)
Lemma FWS_last : forall w v a x, rfc_FWS w v -> w = a ++ [x] -> rfc_WSP x.
Proof.
  intros w v a x H. assert (L : forall u b, chars1 rfc_WSP u -> b ++ u = a ++ [x] -> rfc_WSP x).
  { intros u b [Hn Hu] Hb. destruct (exists_last Hn) as (u' & y & ->). rewrite app_assoc in Hb. apply app_inj_tail in Hb as [_ <-].
    apply Forall_app in Hu as [_ Hu]. now inversion Hu. }
  destruct H as [w H|w1 w2 H1 H2]; intros Hw; [exact (L w [] H Hw)|]. apply (L w2 (w1 ++ CRLF) H2). now rewrite <- app_assoc.
Qed.
Lemma oCFWS_last : forall c a x, rfc_oCFWS c -> c = a ++ [x] -> rfc_WSP x \/ x = 41.
Proof.
  intros c a x [|c' [t w v Ht Hw|w v Hw]] Hc; [now destruct a| |left; eapply FWS_last; eauto].
  destruct Hw as [|w v Hw].
  - rewrite app_nil_r in Hc. destruct (comments_last _ Ht) as [b ->]. apply app_inj_tail in Hc as [_ <-]. now right.
  - left. assert (Hn : w <> []) by (destruct Hw as [w [Hn _]|w1 w2 _ [Hn _]]; [auto|destruct w1; discriminate]).
    destruct (exists_last Hn) as (w' & y & E). rewrite E, app_assoc in Hc. apply app_inj_tail in Hc as [_ <-]. eapply FWS_last; eauto.
Qed.
Lemma oCFWS_no_atext : forall c a x, rfc_oCFWS c -> c = a ++ [x] -> rfc_atext x -> False.
Proof. intros c a x H Hc Hx. destruct (oCFWS_last _ _ _ H Hc) as [W| ->]; [|apply atext_spec in Hx; discriminate Hx]. apply atext_spec in Hx. destruct W as [->| ->]; discriminate Hx. Qed.
Lemma oCFWS_first : forall c y b, rfc_oCFWS c -> c = [y] ++ b -> rfc_atext y -> False.
Proof.
  intros c y b [|c' H] Hc Hy; [discriminate|]. destruct (CFWS_head _ H) as (x & t & -> & Hx). injection Hc as -> _. apply atext_spec in Hy.
  destruct Hx as [->|[->|[->| ->]]]; discriminate Hy.
Qed.

(* a word that ends with an atom character is an atom without anything after it *)
Definition no_ew (c v : bytes) : Prop := False.
Lemma word_ends : forall c v a x, rfc_word c v -> c = a ++ [x] -> rfc_atext x -> exists l, c = l ++ v /\ rfc_oCFWS l /\ chars1 rfc_atext v.
Proof.
  intros c v a x [c' v' [l at_ r Hl Ha Hr]|c' v' [l b v'' r Hl Hb Hr]] Hc Hx.
  - destruct r as [|r0 r'] eqn:R; [exists l; now rewrite app_nil_r|]. exfalso. destruct (@exists_last _ (r0 :: r') ltac:(discriminate)) as (r1 & y & E1).
    rewrite E1, !app_assoc in Hc. apply app_inj_tail in Hc as [_ <-]. eapply oCFWS_no_atext; eauto.
  - exfalso. destruct r as [|r0 r'] eqn:R.
    + rewrite app_nil_r in Hc. change (l ++ [34] ++ b ++ [34]) with (l ++ ([34] ++ b) ++ [34]) in Hc. rewrite app_assoc in Hc. apply app_inj_tail in Hc as [_ <-].
      apply atext_spec in Hx. discriminate Hx.
    + destruct (@exists_last _ (r0 :: r') ltac:(discriminate)) as (r1 & y & E1). rewrite E1, !app_assoc in Hc. apply app_inj_tail in Hc as [_ <-].
      eapply oCFWS_no_atext; eauto.
Qed.
Lemma first_of : forall (l : bytes) c y b, l ++ c = [y] ++ b -> l = [] \/ exists l', l = [y] ++ l'.
Proof. intros [|z l] c y b H; [now left|right]. injection H as -> _. now exists l. Qed.
Lemma word_starts : forall m c v y b, clear_word m no_ew c v -> c = [y] ++ b -> rfc_atext y -> exists r, c = v ++ r /\ rfc_oCFWS r /\ chars1 rfc_atext v.
Proof.
  intros m c v y b H Hc Hy. destruct H as [c v [l a r Hl Ha Hr] _|c v [l q v' r Hl Hq Hr]|w x c v _ []].
  - destruct (first_of _ _ _ _ Hc) as [->|[l' E]]; [now exists r|]. exfalso. exact (oCFWS_first l y l' Hl E Hy).
  - exfalso. destruct (first_of _ _ _ _ Hc) as [->|[l' E]]; [|exact (oCFWS_first l y l' Hl E Hy)]. injection Hc as <- _. apply atext_spec in Hy. discriminate Hy.
Qed.
Lemma clear_word_nonempty : forall m c v, clear_word m no_ew c v -> c <> [].
Proof.
  intros m c v H. destruct H as [c v [l a r Hl [Hn _] Hr] _|c v [l q v' r Hl Hq Hr]|w x c v _ []].
  - destruct l; [destruct a; [tauto|discriminate]|discriminate].
  - destruct l; discriminate.
Qed.
Lemma apart_dec : forall c d, apart c d \/ exists a x y b, c = a ++ [x] /\ d = [y] ++ b /\ rfc_atext x /\ rfc_atext y.
Proof.
  intros c d. destruct c as [|c0 c'] eqn:C; [left; intros a x y b H; now destruct a|]. destruct (@exists_last _ (c0 :: c') ltac:(discriminate)) as (a & x & ->).
  destruct d as [|y b]; [left; intros a' x' y' b' _ H; discriminate|].
  destruct (is_atext x) eqn:X, (is_atext y) eqn:Y;
    [right; exists a, x, y, b; repeat split; auto; now apply atext_spec| | |];
    left; intros a' x' y' b' H1 H2 [H3 H4]; apply app_inj_tail in H1 as [_ <-]; injection H2 as <- _; apply atext_spec in H3; apply atext_spec in H4; congruence.
Qed.
Lemma apart_after : forall x c d, c <> [] -> apart c d -> apart (x ++ c) d.
Proof.
  intros x c d Hn H a p q b Hc Hd. destruct (exists_last Hn) as (c' & z & E). subst c. rewrite app_assoc in Hc. apply app_inj_tail in Hc as [_ <-]. now apply (H c' z q b).
Qed.
Lemma chars1_app : forall (P : byte -> Prop) a b, chars1 P a -> chars1 P b -> chars1 P (a ++ b).
Proof. intros P a b [Ha H1] [_ H2]. split; [destruct a; [tauto|discriminate]|now apply Forall_app]. Qed.
Lemma word_merge : forall m c v c1 v1, unmarked m (c ++ c1) -> rfc_word c v -> clear_word m no_ew c1 v1 -> ~ apart c c1 -> clear_word m no_ew (c ++ c1) (v ++ v1).
Proof.
  intros m c v c1 v1 Hm H H1 N. destruct (apart_dec c c1) as [A|(a & x & y & b & E1 & E2 & Hx & Hy)]; [tauto|].
  destruct (word_ends _ _ _ _ H E1 Hx) as (l & -> & Hl & Hv). destruct (word_starts _ _ _ _ _ H1 E2 Hy) as (r & -> & Hr & Hv1).
  replace ((l ++ v) ++ v1 ++ r) with (l ++ (v ++ v1) ++ r) in * by now rewrite <- !app_assoc.
  apply clear_atom; [constructor; auto; now apply chars1_app|]. apply unmarked_not_encoded. eapply unmarked_sub; eauto.
Qed.
Lemma apart_prefix : forall c d e, d <> [] -> apart c (d ++ e) <-> apart c d.
Proof.
  intros c [|y d] e Hn; [tauto|]. split; intros H a x z b Hc Hd.
  - injection Hd as -> ->. now apply (H a x z (b ++ e)).
  - injection Hd as <- _. now apply (H a x y d).
Qed.
Definition marked_only (m : bool) (EW : bytes -> bytes -> Prop) : Prop := forall c v, EW c v -> m = true /\ exists b, c = bs "=?" ++ b.
Lemma phrase_word_word : forall m EW c v, marked_only m EW -> unmarked m c -> rfc_phrase_word EW c v -> rfc_word c v.
Proof.
  intros m EW c v HE Hm H0. destruct H0 as [c v H|w x c v _ H]; auto. exfalso. apply HE in H as [Em [b ->]]. apply (Hm Em w b). reflexivity.
Qed.
Lemma word_clear : forall m EW c v, unmarked m c -> rfc_word c v -> clear_word m EW c v.
Proof.
  intros m EW c v Hm H0. destruct H0 as [c v H|c v H]; [|now apply clear_quoted]. apply clear_atom; auto. destruct H. apply unmarked_not_encoded. eapply unmarked_sub; eauto.
Qed.
Lemma phrase_plainly : forall m EW, marked_only m EW -> forall c l, many_of (rfc_phrase_word EW) c l -> l <> [] -> unmarked m c ->
  exists l', clear_phrase m no_ew c l' /\ concat l = concat l'.
Proof.
  intros m EW HE c l H. induction H as [|c a cs l Hc Hcs IH]; intros Hn Hm; [tauto|].
  apply (phrase_word_word m) in Hc; auto; [|eapply unmarked_l; eauto]. destruct l as [|a2 l].
  - inversion Hcs; subst. rewrite app_nil_r in *. exists [a]. split; auto. constructor. now apply word_clear.
  - destruct IH as (l' & IH & E); [discriminate|eapply unmarked_r; eauto|]. destruct (apart_dec c cs) as [A|N].
    + exists (a :: l'). split; [|change (a ++ concat (a2 :: l) = a ++ concat l'); now rewrite E]. constructor; auto. apply word_clear; auto. eapply unmarked_l; eauto.
    + assert (NA : ~ apart c cs) by (intros A; destruct N as (p & x & y & b & E1 & E2 & Hx & Hy); now apply (A p x y b)).
      inversion IH as [c1 v1 H1|c1 v1 cs1 l1 H1 A1 IH1]; subst.
      * exists [a ++ v1]. split; [constructor; now apply word_merge|]. change (concat (a :: a2 :: l)) with (a ++ concat (a2 :: l)). rewrite E. cbn [concat]. now rewrite !app_nil_r.
      * pose proof (clear_word_nonempty _ _ _ H1) as N1. exists ((a ++ v1) :: l1). split.
        { rewrite app_assoc. constructor; auto; [|now apply apart_after]. apply word_merge; auto; [|intros A; apply NA; now apply apart_prefix].
          rewrite app_assoc in Hm. eapply unmarked_l; eauto. }
        { change (concat (a :: a2 :: l)) with (a ++ concat (a2 :: l)). rewrite E. cbn [concat]. now rewrite app_assoc. }
Qed.
Lemma clear_word_any : forall m EW c v, clear_word m no_ew c v -> clear_word m EW c v.
Proof. intros m EW c v H. destruct H as [c v H N|c v H|w x c v _ []]; [now apply clear_atom|now apply clear_quoted]. Qed.
Lemma clear_phrase_any : forall m EW c l, clear_phrase m no_ew c l -> clear_phrase m EW c l.
Proof. intros m EW c l H. induction H; constructor; auto; now apply clear_word_any. Qed.

Lemma encoded_marked : forall E, marked_only (f_mime E) (encoded E).
Proof. intros E c v [Hm [charset lang e text raw v' H1 H2 H3 H4 H5]]. split; auto. eauto. Qed.
Lemma phrase_regular : forall m EW EW', marked_only m EW -> forall c l, rfc_phrase EW c l -> unmarked m c -> exists l', clear_phrase m EW' c l' /\ same_words l l'.
Proof. intros m EW EW' HE c l [Hn H] Hm. destruct (phrase_plainly m EW HE c l H Hn Hm) as (l' & H' & E). exists l'. split; auto. now apply clear_phrase_any. Qed.

(* ---- addresses ---- *)
Lemma addr_spec_regular : forall m compat c a, rfc_addr_spec compat c a -> unmarked m c -> clear_addr_spec m compat c a.
Proof.
  intros m compat c a H Hm. destruct H as [c1 l c2 d H1 H2]. destruct H1 as [c1 l H1|c1 l H1]; [|now apply clear_quoted_local].
  apply clear_dot_atom; auto. apply unmarked_l in Hm. destruct H1. apply unmarked_not_encoded. eapply unmarked_sub; eauto.
Qed.
Lemma mailbox_regular : forall m compat EW, marked_only m EW -> forall c x, rfc_mailbox compat EW c x -> unmarked m c ->
  exists x', clear_mailbox m compat EW c x' /\ same_mailbox x x'.
Proof.
  intros m compat EW HE c x H0 Hm. destruct H0 as [c1 n c2 a Hn Ha|c a Ha|c a Ha].
  - destruct (phrase_regular m EW EW HE c1 n Hn) as (n' & H' & S); [eapply unmarked_l; eauto|]. eexists. split; [apply clear_named; eauto|now constructor].
  - eexists. split; [apply clear_angle; exact Ha|constructor].
  - eexists. split; [apply clear_plain; apply addr_spec_regular; [exact Ha|exact Hm]|constructor].
Qed.
Lemma comma_regular : forall A m (P Q : bytes -> A -> Prop) (S : A -> A -> Prop), (forall c x, P c x -> unmarked m c -> exists x', Q c x' /\ S x x') ->
  forall c l, comma_list P c l -> unmarked m c -> exists l', comma_list Q c l' /\ Forall2 S l l'.
Proof.
  intros A m P Q S H c l HL. induction HL as [c a Ha|c a cs l Ha HL IH]; intros Hm.
  - destruct (H c a Ha Hm) as (a' & H1 & H2). exists [a']. split; [now constructor|auto].
  - destruct (H c a Ha) as (a' & H1 & H2); [eapply unmarked_l; eauto|]. destruct IH as (l' & H3 & H4); [apply unmarked_r in Hm; now apply unmarked_r in Hm|].
    exists (a' :: l'). split; [now constructor|auto].
Qed.
Lemma address_regular : forall m compat EW, marked_only m EW -> forall c x, rfc_address compat EW c x -> unmarked m c ->
  exists x', clear_address m compat EW c x' /\ same_address x x'.
Proof.
  intros m compat EW HE c x H0 Hm. destruct H0 as [c y H|c g H].
  - destruct (mailbox_regular m compat EW HE c y H Hm) as (y' & H1 & H2). exists (AMailbox y'). split; constructor; auto.
  - destruct H as [c1 n c2 l r Hn Hl Hr]. destruct (phrase_regular m EW (in_phrase EW) HE c1 n Hn) as (n' & H' & S); [eapply unmarked_l; eauto|].
    assert (Hm2 : unmarked m c2) by (apply unmarked_r in Hm; apply unmarked_r in Hm; eapply unmarked_l; eauto).
    assert (exists l', clear_group_list m compat EW c2 l' /\ Forall2 same_mailbox l l') as (l' & Hl' & S').
    { destruct Hl as [c2 l Hl|c2 Hl].
      - destruct (comma_regular _ m _ (clear_mailbox m compat EW) same_mailbox (mailbox_regular m compat EW HE) c2 l Hl Hm2) as (l' & A & B). exists l'. split; auto. now constructor.
      - exists []. split; auto. now apply clear_group_empty. }
    exists (AGroup (n', l')). split; constructor; auto.
Qed.
Lemma address_list_regular : forall m compat EW, marked_only m EW -> forall c l, rfc_address_list compat EW c l -> unmarked m c ->
  exists l', clear_address_list m compat EW c l' /\ Forall2 same_address l l'.
Proof. intros m compat EW HE. apply comma_regular, address_regular, HE. Qed.
Lemma mailbox_list_regular : forall m compat EW, marked_only m EW -> forall c l, rfc_mailbox_list compat EW c l -> unmarked m c ->
  exists l', clear_mailbox_list m compat EW c l' /\ Forall2 same_mailbox l l'.
Proof. intros m compat EW HE. apply comma_regular, mailbox_regular, HE. Qed.
Lemma bcc_regular : forall m compat EW, marked_only m EW -> forall c l, rfc_bcc compat EW c l -> unmarked m c ->
  exists l', clear_bcc m compat EW c l' /\ Forall2 same_address l l'.
Proof.
  intros m compat EW HE c l H0 Hm. destruct H0 as [c l H|c H]; [|exists []; split; auto; now apply clear_bcc_empty].
  destruct (address_list_regular m compat EW HE c l H Hm) as (l2 & A & B). exists l2. split; auto. now apply clear_bcc_list.
Qed.
Lemma keywords_regular : forall m EW, marked_only m EW -> forall c l, comma_list (rfc_phrase EW) c l -> unmarked m c ->
  exists l', clear_keywords m EW c l' /\ Forall2 same_words l l'.
Proof. intros m EW HE. apply comma_regular. intros c x H Hm. now apply (phrase_regular m EW EW). Qed.

(* ---- texts ---- *)
Lemma no_word_unmarked : forall m tc a, m = true -> unmarked m a -> no_word tc a.
Proof. intros m tc a Hm H e d r [charset lang enc text raw v H1 H2 H3 H4 H5] ->. apply (H Hm [] ((charset ++ lang ++ bs "?" ++ enc ++ bs "?" ++ text ++ bs "?=") ++ r)). now rewrite <- !app_assoc. Qed.
Lemma utext_regular : forall tc after t v, mime_utext tc after t v -> unmarked true t -> forall after', clear_utext tc after' t v.
Proof.
  intros tc after t v H. induction H as [after|after w v c t x Hw Hc Ht IH|after w v e d t x Hw He Ht IH]; intros Hm after'; [constructor| |].
  - assert (Hm' : unmarked true t) by (apply unmarked_r in Hm; now apply unmarked_r in Hm). specialize (IH Hm' false).
    inversion IH as [af E1 E2|af w1 v1 e d t1 x1 Hw1 He Ht1 E1 E2|af w1 v1 a t1 x1 Hw1 Ha Hno Hv Ht1 E1 E2 E3]; subst.
    + apply clear_utext_run; [auto|split; [discriminate|now constructor]|apply (no_word_unmarked true); auto; eapply unmarked_sub; eauto|intros ? ? [=]|constructor].
    + exfalso. destruct He as [charset lang enc text raw v2 H1 H2 H3 H4 H5]. apply (Hm' eq_refl w1 ((charset ++ lang ++ bs "?" ++ enc ++ bs "?" ++ text ++ bs "?=") ++ t1)). now rewrite <- !app_assoc.
    + destruct Hw1 as [|w1 v1 Hw1].
      * change (w ++ [c] ++ [] ++ a ++ t1) with (w ++ ([c] ++ a) ++ t1). change (v ++ [c] ++ [] ++ a ++ x1) with (v ++ ([c] ++ a) ++ x1).
        apply clear_utext_run; [auto|apply chars1_app; auto; split; [discriminate|now constructor]|apply (no_word_unmarked true); auto; apply (unmarked_sub true w _ t1); exact Hm|auto|auto].
      * apply clear_utext_run; [auto|split; [discriminate|now constructor]|apply (no_word_unmarked true); auto; eapply unmarked_sub; eauto| |exact IH].
        intros y r Hy Hv2. assert (HH : forall u q, rfc_FWS u q -> forall z, u ++ z = [y] ++ r -> rfc_WSP y \/ y = 13).
        { intros u q [u' [Hn Hu]|u1 u2 Hu1 Hu2] z Hz.
          - destruct u' as [|u0 u']; [tauto|]. injection Hz as -> _. left. now inversion Hu.
          - destruct u1 as [|u0 u1]; [injection Hz as <- _; now right|]. injection Hz as -> _. left. now inversion Hu1. }
        destruct (HH _ _ Hw1 _ Hy) as [[->| ->]| ->]; unfold rfc_VCHAR in Hv2; lia.
  - exfalso. destruct He as [charset lang enc text raw v2 H1 H2 H3 H4 H5]. apply (Hm eq_refl w ((charset ++ lang ++ bs "?" ++ enc ++ bs "?" ++ text ++ bs "?=") ++ t)). now rewrite <- !app_assoc.
Qed.
Lemma mime_text_regular : forall tc c v, mime_unstructured_text tc c v -> unmarked true c -> clear_text tc c v.
Proof. intros tc c v H0 Hm. destruct H0 as [t v w Ht Hw]. constructor; auto. eapply utext_regular; eauto. eapply unmarked_l; eauto. Qed.
Lemma text_regular : forall (m : bool) tc c v, rfc_text_value m tc c v -> unmarked m c -> clear_text_value m tc c v.
Proof. intros [|] tc c v H Hm; [now apply mime_text_regular|exact H]. Qed.

(* ---- headers ---- *)
Lemma header_regular : forall A name (V W : bytes -> A -> Prop) (S : A -> A -> Prop) m c v, rfc_header name V c v -> unmarked m c -> tidy_line c ->
  (forall x v, V x v -> unmarked m x -> exists v', W x v' /\ S v v') -> exists v', rfc_header name (tidily W) c v' /\ S v v'.
Proof.
  intros A name V W S m c v H0 Hm Ht H. destruct H0 as [n x v Hn Hv]. destruct (H x v Hv) as (v2 & H1 & H2); [apply unmarked_r in Hm; apply unmarked_r in Hm; eapply unmarked_l; eauto|].
  exists v2. split; auto. constructor; auto. split; auto. intros a w E Hw.
  destruct (Ht (n ++ [58] ++ x)) with (a := n ++ [58] ++ a) (w := w) as (b & y & E1 & E2); [now rewrite <- !app_assoc|rewrite E, <- !app_assoc; reflexivity|auto|].
  destruct a as [|a0 a'] eqn:EA.
  - exfalso. rewrite app_nil_r in E1. apply app_inj_tail in E1 as [_ <-]. unfold rfc_WSP in E2. lia.
  - destruct (@exists_last _ (a0 :: a') ltac:(discriminate)) as (b' & y' & E'). rewrite E' in *. exists b', y'. split; auto.
    rewrite !app_assoc in E1. apply app_inj_tail in E1 as [_ <-]. exact E2.
Qed.
Lemma header_regular_same : forall A name (V : bytes -> A -> Prop) c v, rfc_header name V c v -> tidy_line c -> rfc_header name (tidily V) c v.
Proof.
  intros A name V c v H Ht. destruct (header_regular A name V V eq false c v H) as (v' & H1 & <-); auto; [discriminate|]. intros; eauto.
Qed.
Lemma header_text_regular : forall name m tc c v, rfc_header name (rfc_text_value m tc) c v -> unmarked m c -> rfc_header name (clear_text_value m tc) c v.
Proof. intros name m tc c v H0 Hm. destruct H0 as [n x v Hn Hv]. constructor; auto. apply text_regular; auto. apply unmarked_r in Hm. apply unmarked_r in Hm. eapply unmarked_l; eauto. Qed.
Lemma field_regular : forall E c f, env_ok E -> field_text E c f -> regular E c f -> exists f', clear_field E c f' /\ alike f f'.
Proof.
  intros E c f HE H [Hm HR]. pose proof (encoded_marked E) as HW.
  destruct H as [c v Hf H|c v Hf H|c v Hf H|c v Hf H|c v Hf H|c v Hf H|c v Hf H|c v Hf H|c v Hf H|c v Hf H|c v Hf H|c v Hf H|c v Hf H
     |c x y Hf H|c t s p Hf H|c v Hf H|c v Hf H|c v Hf H|c v Hf H|c1 p c2 r c3 l Hf H1 H2 H3 H4|c n v H].
  - exists (FDate v). split; [|constructor]. apply clear_date; auto. now apply header_regular_same.
  - destruct (header_regular _ _ _ _ _ _ _ _ H Hm HR (mailbox_list_regular _ _ _ HW)) as (v' & A & B). exists (FFrom v'). split; [now apply clear_from|now constructor].
  - destruct (header_regular _ _ _ _ _ _ _ _ H Hm HR (mailbox_regular _ _ _ HW)) as (v' & A & B). exists (FSender v'). split; [now apply clear_sender|now constructor].
  - destruct (header_regular _ _ _ _ _ _ _ _ H Hm HR (address_list_regular _ _ _ HW)) as (v' & A & B). exists (FReplyTo v'). split; [now apply clear_reply_to|now constructor].
  - destruct (header_regular _ _ _ _ _ _ _ _ H Hm HR (address_list_regular _ _ _ HW)) as (v' & A & B). exists (FTo v'). split; [now apply clear_to|now constructor].
  - destruct (header_regular _ _ _ _ _ _ _ _ H Hm HR (address_list_regular _ _ _ HW)) as (v' & A & B). exists (FCc v'). split; [now apply clear_cc|now constructor].
  - destruct (header_regular _ _ _ _ _ _ _ _ H Hm HR (bcc_regular _ _ _ HW)) as (v' & A & B). exists (FBcc v'). split; [now apply clear_bcc_field|now constructor].
  - exists (FMessageId v). split; [|constructor]. apply clear_message_id; auto. now apply header_regular_same.
  - exists (FInReplyTo v). split; [|constructor]. apply clear_in_reply_to; auto. now apply header_regular_same.
  - exists (FReferences v). split; [|constructor]. apply clear_references; auto. now apply header_regular_same.
  - exists (FSubject v). split; [|constructor]. apply clear_subject; auto. now apply header_text_regular.
  - exists (FComments v). split; [|constructor]. apply clear_comments; auto. now apply header_text_regular.
  - destruct (header_regular _ _ _ _ _ _ _ _ H Hm HR (keywords_regular _ _ HW)) as (v' & A & B). exists (FKeywords v'). split; [now apply clear_keywords_field|now constructor].
  - exists (FMimeVersion x y). split; [|constructor]. now apply clear_mime_version.
  - destruct HR.
  - destruct HR.
  - exists (FContentId v). split; [|constructor]. apply clear_content_id; auto. now apply header_regular_same.
  - exists (FContentDescription v). split; [|constructor]. apply clear_content_description; auto. rewrite Hf in Hm. now apply (header_text_regular _ true).
  - destruct HR.
  - destruct HR.
  - exists (FUnknown n v). split; [|constructor]. apply clear_unknown_field. inversion H; subst. constructor; auto. apply text_regular; auto.
    assert (U : unmarked (f_mime E) c0) by (apply unmarked_r in Hm; apply unmarked_r in Hm; eapply unmarked_l; eauto).
    intros Hu. apply U. now apply (ok_unrecognized E HE).
Qed.
Lemma alike_plain : forall f f' f'', alike f f' -> same_field f' f'' -> ~ (exists t s l, f = FContentType t s l) -> ~ (exists d, f = FContentDisposition d) -> alike f f''.
Proof.
  intros f f' f'' H S N1 N2. destruct H; inversion S; subst; try (constructor; assumption).
  - exfalso. eauto.
  - exfalso. eauto.
Qed.
Theorem header_recognised : forall E c f i, env_ok E -> field_text E c f -> regular E c f -> no_blank i ->
  exists f', any_field E (c ++ i) = Ok (i, f') /\ alike f f'.
Proof.
  intros E c f i HE H R Hi. apply no_blank_ends in Hi. destruct (field_regular E c f HE H R) as (f1 & H1 & A1).
  destruct (any_field_forward E c f1 i (ok_hash E HE) H1 Hi) as (f2 & H2 & A2). exists f2. split; auto.
  eapply alike_plain; eauto; intros N; destruct R as [_ R]; [destruct N as (? & ? & ? & ->)|destruct N as (? & ->)]; exact R.
Qed.
Definition parameters_free (f : field) : Prop := ~ (exists t s l, f = FContentType t s l) /\ ~ (exists d, f = FContentDisposition d).
Lemma regular_fields_clear : forall E c fs, env_ok E -> regular_fields E c fs ->
  exists fs', many_of (clear_field E) c fs' /\ Forall2 (fun f f' => alike f f' /\ parameters_free f \/ f = f') fs fs'.
Proof.
  intros E c fs HE H. induction H as [|c f cs fs H Hs (fs' & A & B)|c f cs fs H R Hs (fs' & A & B)]; [exists []; repeat constructor| |].
  - exists (f :: fs'). split; [now constructor|]. constructor; auto.
  - destruct (field_regular E c f HE H R) as (f' & H1 & H2). exists (f' :: fs'). split; [now constructor|]. constructor; auto. left. split; auto.
    split; intros N; destruct R as [_ R]; [destruct N as (? & ? & ? & ->)|destruct N as (? & ->)]; exact R.
Qed.
Lemma matching_list : forall fs f1 f2, Forall2 (fun f f' => alike f f' /\ parameters_free f \/ f = f') fs f1 -> Forall2 same_field f1 f2 -> Forall2 matching fs f2.
Proof.
  intros fs f1 f2 A. revert f2. induction A as [|x y l l' Hx A IH]; intros f2 S; inversion S; subst; constructor; auto.
  destruct Hx as [[Hx [N1 N2]]| ->]; [left; eapply alike_plain; eauto|now right].
Qed.

(* ---- conforming headers that are not recognised ---- *)
Lemma cfg_err : forall A b (p : parser A) l i, (exists e, p i = Err e) -> match_parsers (cfg b p ++ l) i = match_parsers l i.
Proof. intros A b p l i [e H]. destruct b; [|reflexivity]. cbn [cfg app match_parsers]. now rewrite H. Qed.
Ltac by_flags E := destruct E as [? ? ? ? ? ? ? ? ? ? ? ? ? ? [|] [|] [|] [|] ? ?]; vm_compute; eauto.
Definition date_line : bytes := bs "Date: 1 Jan 2020 10:00 +0000" ++ CRLF.
Definition untidy_from : bytes := bs "From: a@b.c " ++ CRLF.
Definition empty_bcc : bytes := bs "Bcc:" ++ CRLF.
Definition addr_received : bytes := bs "Received: a@b.c; 1 Jan 2020 10:00 +0000" ++ CRLF.
Lemma atext_all : forall t, Forall (fun c => is_atext c = true) t -> chars rfc_atext t.
Proof. intros t H. eapply Forall_impl; [|exact H]. intros c. apply atext_spec. Qed.
Lemma abc_text : forall compat l r, rfc_oCFWS l -> rfc_oCFWS r -> rfc_addr_spec compat (l ++ bs "a@b.c" ++ r) {| a_local_part := bs "a"; a_domain := bs "b.c" |}.
Proof.
  intros compat l r Hl Hr. replace (l ++ bs "a@b.c" ++ r) with ((l ++ bs "a" ++ []) ++ [64] ++ ([] ++ bs "b.c" ++ r)) by now rewrite <- !app_assoc.
  constructor; [apply local_dot_atom|apply domain_dot_atom]; constructor; auto; try constructor.
  - rewrite <- (app_nil_r (bs "a")). constructor; [|constructor]. split; [discriminate|]. apply atext_all. repeat constructor.
  - change (bs "b.c") with (bs "b" ++ [46] ++ bs "c" ++ []). constructor; [split; [discriminate|apply atext_all; repeat constructor]|].
    apply dot_tail_cons; [apply atext_all; repeat constructor|now right; discriminate|constructor].
Qed.
Lemma one_blank : rfc_oCFWS (bs " ").
Proof. apply oCFWS_some. eapply CFWS_fws. apply FWS_plain. split; [discriminate|]. repeat constructor. Qed.
Lemma untidy_from_text : forall E, f_from E = true -> field_text E untidy_from (FFrom [someone]).
Proof.
  intros E HF. apply text_from; auto. change untidy_from with (bs "From" ++ [58] ++ (bs " " ++ bs "a@b.c" ++ bs " ") ++ CRLF). constructor; [reflexivity|]. apply comma_one, mailbox_plain.
  apply abc_text; exact one_blank.
Qed.
Lemma header_untidy : forall A name (V : bytes -> A -> Prop) c v, rfc_header name (tidily V) c v -> rfc_header name V c v.
Proof. intros A name V c v [n x v' Hn [Hv _]]. now constructor. Qed.
Lemma addr_received_text : forall compat, rfc_header "Received" (rfc_received compat) addr_received ([RAddr {| a_local_part := bs "a"; a_domain := bs "b.c" |}], some_time).
Proof.
  intros compat. change addr_received with (bs "Received" ++ [58] ++ ((bs " a@b.c" ++ []) ++ bs ";" ++ bs " 1 Jan 2020 10:00 +0000") ++ CRLF). constructor; [reflexivity|].
  constructor; [|exact some_time_value]. apply many_cons; [|constructor]. apply token_addr. change (bs " a@b.c") with (bs " " ++ bs "a@b.c" ++ []). apply abc_text; [exact one_blank|constructor].
Qed.
Theorem untidy_unrecognised : forall E, any_field E (untidy_from ++ date_line) = Ok (date_line, FUnknown (bs "From") (bs " a@b.c")).
Proof. intros E. unfold any_field, field_parsers. repeat (rewrite cfg_err by by_flags E). cbn [match_parsers]. unfold pmap. assert (X : unknown E (untidy_from ++ date_line) = Ok (date_line, (bs "From", bs " a@b.c"))) by by_flags E. now rewrite X. Qed.
Theorem empty_bcc_unrecognised : forall E, any_field E (empty_bcc ++ date_line) = Ok (date_line, FUnknown (bs "Bcc") []).
Proof. intros E. unfold any_field, field_parsers. repeat (rewrite cfg_err by by_flags E). cbn [match_parsers]. unfold pmap. assert (X : unknown E (empty_bcc ++ date_line) = Ok (date_line, (bs "Bcc", []))) by by_flags E. now rewrite X. Qed.
Theorem addr_received_unrecognised : forall E, exists e, trace_block E (addr_received ++ date_line) = Err e.
Proof. intros E. by_flags E. Qed.
Theorem untidy_rejected : forall E, In E [env_default; env_mime; env_all_debug] ->
  exists data fs, message_text E data fs None /\ acceptable E fs None /\ exists e, parse E data = Err e.
Proof.
  intros E HE. assert (f_from E = true /\ f_date E = true) as [HF HD] by (cbn in HE; repeat destruct HE as [<-|HE]; auto; contradiction).
  exists (untidy_from ++ date_line), [FFrom [someone]; FDate some_time]. split; [|split].
  - rewrite <- (app_nil_r (untidy_from ++ date_line)). constructor; [|constructor]. rewrite <- (app_nil_r date_line). apply many_cons; [now apply untidy_from_text|apply many_cons; [|constructor]].
    apply text_date; auto. apply header_untidy, some_time_text.
  - constructor; cbn; try congruence; [repeat (constructor; [cbn; intuition discriminate|]); constructor|]. intros _. right. exists someone. reflexivity.
  - cbn in HE. repeat destruct HE as [<-|HE]; [vm_compute; eauto..|contradiction].
Qed.

(* ---- C42: a header that only one of two builds can read ---- *)
Definition folded_bcc : bytes := bs "From: a@b.c" ++ CRLF ++ date_line ++ bs "Bcc: " ++ CRLF ++ bs " " ++ CRLF.
Definition without_bcc (E : env) : env :=
  {| f_from := f_from E; f_sender := f_sender E; f_subject := f_subject E; f_date := f_date E; f_to := f_to E; f_cc := f_cc E;
     f_bcc := false; f_message_id := f_message_id E; f_in_reply_to := f_in_reply_to E; f_references := f_references E; f_reply_to := f_reply_to E;
     f_comments := f_comments E; f_keywords := f_keywords E; f_trace := f_trace E; f_mime := f_mime E; f_unrecognized_headers := f_unrecognized_headers E;
     f_compatibility_fixes := f_compatibility_fixes E; debug := debug E; textcode := textcode E; hash_order := hash_order E |}.
Theorem folded_bcc_needs_feature : forall E, In E [env_default; env_mime; env_all_debug] ->
  env_ok E /\ env_ok (without_bcc E) /\ (exists e, parse E folded_bcc = Ok e /\ bcc e = Some []) /\ exists e, parse (without_bcc E) folded_bcc = Err e.
Proof.
  intros E HE. assert (O : env_ok E) by (cbn in HE; repeat destruct HE as [<-|HE]; [exact env_default_ok|exact env_mime_ok|exact env_all_debug_ok|contradiction]).
  split; [auto|]. split; [destruct O; constructor; auto|]. cbn in HE. repeat destruct HE as [<-|HE]; [..|contradiction]; (split; [eexists; split; [vm_compute; reflexivity|reflexivity]|vm_compute; eauto]).
Qed.
Lemma date_line_regular : forall E, f_date E = true -> field_text E date_line (FDate some_time) /\ regular E date_line (FDate some_time).
Proof.
  intros E HD. split; [apply text_date; auto; apply header_untidy, some_time_text|]. split; [intros _ a b H; apply (f_equal (existsb (fun x => x =? 63))) in H; rewrite existsb_app in H; cbn in H; rewrite orb_true_r in H; discriminate|].
  intros v H. change date_line with (bs "Date: 1 Jan 2020 10:00 +0000" ++ CRLF) in H. apply app_inv_tail in H as <-.
  change (bs "Date: 1 Jan 2020 10:00 +0000") with (bs "Date: " ++ bs "1 Jan 2020 10:00 +0000"). intros a w E1 [Hn Hw]. destruct (exists_last Hn) as (w' & x & ->). exfalso.
  apply (f_equal (@rev byte)) in E1. rewrite !rev_app_distr in E1. cbn in E1. injection E1 as E1 _. apply Forall_app in Hw as [_ Hw]. inversion Hw as [|? ? [X|X] _]; subst; discriminate.
Qed.
Theorem untidy_header : forall E, f_from E = true -> exists c l, field_text E c (FFrom l) /\ any_field E (c ++ date_line) = Ok (date_line, FUnknown (bs "From") (bs " a@b.c")).
Proof. intros E HF. exists untidy_from, [someone]. split; [now apply untidy_from_text|apply untidy_unrecognised]. Qed.
Theorem addr_received_header : forall E, exists c l d, rfc_header "Received" (rfc_received (f_compatibility_fixes E)) c (l, d) /\ exists e, trace_block E (c ++ date_line) = Err e.
Proof. intros E. eexists addr_received, _, _. split; [apply addr_received_text|apply addr_received_unrecognised]. Qed.

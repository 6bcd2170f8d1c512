(* Completeness, part 6: unstructured text with encoded words. *)
From Coq Require Import ZArith Lia ZifyBool ZifyNat ZifyN.
From Verif Require Import Base Utf8 Combinators CharSets Whitespace Common EncodedWord Address Rfc5322 Rfc2047 CodecSpec RfcFields Post SoundBase SoundAddr Steps Complete Forward ForwardText ForwardAddr.
Local Open Scope N_scope.

Lemma ew_token_vchar : forall c, ew_token_char c -> rfc_VCHAR c.
Proof. intros c [H _]. unfold rfc_VCHAR. lia. Qed.
Lemma ew_letter : forall x c, 97 <= x <= 122 -> fold_case c = x -> rfc_VCHAR c.
Proof. intros x c Hx H. unfold fold_case in H. destruct ((65 <=? c) && (c <=? 90)) eqn:X; unfold rfc_VCHAR; lia. Qed.
Lemma encoded_word_vchars : forall tc e d, rfc_encoded_word tc e d -> chars1 rfc_VCHAR e.
Proof.
  intros tc e d [cs lang enc text raw v Hcs Hl Ht He Hd]. split; [discriminate|].
  assert (L : forall x, 97 <= x <= 122 -> same_nocase enc [x] -> Forall rfc_VCHAR enc).
  { intros x Hx Hs. unfold same_nocase in Hs. destruct enc as [|y [|? ?]]; try discriminate. cbn [map] in Hs. injection Hs as Hs. apply Forall_cons; [|constructor].
    apply (ew_letter x); auto. rewrite Hs. unfold fold_case. destruct ((65 <=? x) && (x <=? 90)) eqn:X; lia. }
  assert (A : forall a b, Forall rfc_VCHAR a -> Forall rfc_VCHAR b -> Forall rfc_VCHAR (a ++ b)) by (intros; now apply Forall_app).
  assert (B : forall l, forallb is_vchar l = true -> Forall rfc_VCHAR l).
  { intros l H. apply Forall_forall. intros c Hc. apply vchar_spec. rewrite forallb_forall in H. auto. }
  apply A; [now apply B|]. apply A; [eapply Forall_impl; [|apply Hcs]; intros c [H _]; now apply ew_token_vchar|].
  apply A; [destruct Hl as [|l [_ Hl]]; [constructor|]; apply A; [now apply B|]; eapply Forall_impl; [|exact Hl]; exact ew_token_vchar|].
  apply A; [now apply B|]. apply A; [destruct He as [enc text raw Hs _|enc text Hs]; [apply (L 98)|apply (L 113)]; auto; lia|].
  apply A; [now apply B|]. apply A; [eapply Forall_impl; [|apply Ht]; intros c [H _]; unfold rfc_VCHAR; lia|]. now apply B.
Qed.
(* a prefix made of visible characters lies in the run of visible characters *)
Lemma vchar_prefix : forall e r a t, e ++ r = a ++ t -> chars rfc_VCHAR e -> no_vchar t -> exists r', a = e ++ r'.
Proof.
  induction e as [|x e IH]; intros r a t H He Ht; [exists a; reflexivity|]. inversion He as [|? ? Hx He']; subst. destruct a as [|y a].
  - cbn [app] in H. destruct (Ht x (e ++ r)); [now rewrite <- H|auto].
  - cbn [app] in H. injection H as <- H. destruct (IH _ _ _ H He' Ht) as [r' ->]. exists r'. reflexivity.
Qed.
Lemma no_vchar_ends : forall t, no_vchar t -> ends is_vchar t.
Proof. intros [|c t] H; [exact I|]. cbn. destruct (is_vchar c) eqn:X; auto. apply vchar_spec in X. destruct (H c t eq_refl X). Qed.
Lemma ends_no_vchar : forall t, ends is_vchar t -> no_vchar t.
Proof. intros t H c r -> V. cbn in H. apply vchar_spec in V. congruence. Qed.
Lemma no_word_err : forall E a t, no_word (textcode E) a -> no_vchar t -> exists e, encoded_word E (a ++ t) = Err e.
Proof.
  intros E a t Ha Ht. pose proof (sound_encoded_word E (fun _ => False) (a ++ t)) as S. destruct (encoded_word E (a ++ t)) as [[r d]|e|k]; [|eauto|destruct S].
  destruct S as (e & He & Hd). exfalso. destruct (vchar_prefix e r a t) as [r' ->]; auto; [now apply encoded_word_vchars in Hd as [_ Hd]|]. now apply (Ha e d r').
Qed.
Lemma no_word_nonvchar : forall E t, no_vchar t -> exists e, encoded_word E t = Err e.
Proof. intros E t H. apply (no_word_err E [] t); auto. intros e d r He Hn. apply encoded_word_vchars in He as [He _]. now destruct e. Qed.
Lemma oFWS_no_vchar : forall w v t, rfc_oFWS w v -> no_vchar t -> no_vchar (w ++ t).
Proof. intros w v t H Ht. apply ends_no_vchar. eapply oFWS_ends; eauto; try reflexivity. now apply no_vchar_ends. Qed.
Lemma blank_crlf_no_vchar : forall w i, chars rfc_WSP w -> no_vchar (w ++ CRLF ++ i).
Proof. intros w i Hw. apply ends_no_vchar. destruct w as [|x w]; [reflexivity|]. inversion Hw as [|? ? Hx _]; subst. unfold rfc_WSP in Hx. destruct Hx; subst; reflexivity. Qed.

Lemma utext_loop_forward : forall E after t v, clear_utext (textcode E) after t v -> forall w i n, chars rfc_WSP w -> ends is_wsp i -> (length (t ++ w ++ CRLF ++ i) < n)%nat ->
  mime_unstructured_loop E n after (t ++ w ++ CRLF ++ i) = Ok (w ++ CRLF ++ i, v).
Proof.
  intros E after t v H. induction H as [after|after w0 v0 e d t x Hw He Ht IH|after w0 v0 a t x Hw Ha Hn Hv Ht IH]; intros w i n Hb Hi Hl; (destruct n as [|n]; [lia|]); cbn [mime_unstructured_loop].
  - cbn [app]. unfold mime_unstructured_step. destruct (fws_blank_crlf w i Hb Hi) as [e ->]. cbn [attempt bind].
    pose proof (blank_crlf_no_vchar w i Hb) as V. destruct (no_word_nonvchar E _ V) as [e1 ->]. cbn [attempt].
    destruct (take_while1_err is_vchar (w ++ CRLF ++ i)) as [e2 ->]; [now apply no_vchar_ends|]. reflexivity.
  - rewrite <- !app_assoc in *. pose proof (encoded_word_vchars _ _ _ He) as Hev. unfold mime_unstructured_step.
    rewrite (fws_or_inner w0 v0); [|auto|eapply chars1_ends; [exact vchar_inner|exact Hev]]. cbn [bind]. rewrite (encoded_word_forward E e d) by auto. cbn [attempt].
    assert (L : (length (t ++ w ++ CRLF ++ i) < n)%nat). { destruct Hev as [Hne _]. rewrite (app_length w0), (app_length e) in Hl. destruct e; [congruence|cbn [length] in Hl; lia]. }
    destruct after; cbn [attempt]; rewrite IH by auto; cbn [bind]; [reflexivity|]. now rewrite <- app_assoc.
  - rewrite <- !app_assoc in *. unfold mime_unstructured_step. rewrite (fws_or_inner w0 v0); [|auto|eapply chars1_ends; [exact vchar_inner|exact Ha]]. cbn [bind].
    assert (V : no_vchar (t ++ w ++ CRLF ++ i)).
    { apply ends_no_vchar. apply ends_app; [now apply no_vchar_ends|]. intros _. apply no_vchar_ends. now apply blank_crlf_no_vchar. }
    destruct (no_word_err E a (t ++ w ++ CRLF ++ i) Hn V) as [e ->]. cbn [attempt].
    rewrite (take_while1_app is_vchar rfc_VCHAR a (t ++ w ++ CRLF ++ i) vchar_spec vchar_ascii Ha) by (now apply no_vchar_ends). cbn [attempt].
    assert (L : (length (t ++ w ++ CRLF ++ i) < n)%nat). { destruct Ha as [Hne _]. rewrite (app_length w0), (app_length a) in Hl. destruct a; [congruence|cbn [length] in Hl; lia]. }
    rewrite IH by auto. cbn [bind]. now rewrite <- app_assoc.
Qed.
Lemma blanks_forward : forall w i, chars rfc_WSP w -> ignore_many (take_while1 is_wsp) (w ++ CRLF ++ i) = Ok (CRLF ++ i, tt).
Proof.
  intros w i Hw. destruct w as [|x w].
  - cbn [app]. destruct (take_while1_err is_wsp (CRLF ++ i)) as [e He]; [reflexivity|]. eapply ignore_many_steps. eapply steps_stop; eauto.
  - eapply ignore_many_steps. eapply steps_more; [apply (take_while1_app is_wsp rfc_WSP (x :: w) (CRLF ++ i) wsp_spec wsp_ascii)| |].
    + split; [discriminate|exact Hw].
    + reflexivity.
    + rewrite !app_length. cbn [length]. lia.
    + destruct (take_while1_err is_wsp (CRLF ++ i)) as [e He]; [reflexivity|]. eapply steps_stop; eauto.
Qed.
Lemma mime_unstructured_forward : forall E c v i, clear_text (textcode E) c v -> ends is_wsp i -> mime_unstructured E (c ++ CRLF ++ i) = Ok (CRLF ++ i, v).
Proof.
  intros E c v i [t v' w Ht Hw] Hi. unfold mime_unstructured. rewrite <- app_assoc. rewrite (utext_loop_forward E false t v') by (auto; lia). cbn [bind].
  rewrite blanks_forward by auto. reflexivity.
Qed.
(* every text has a greedy reading *)
Lemma utext_cons_chars : forall a t x, chars rfc_VCHAR a -> rfc_utext t x -> rfc_utext (a ++ t) (a ++ x).
Proof. intros a t x H Ht. induction H as [|c a Hc Ha IH]; auto. change ((c :: a) ++ t) with ([] ++ [c] ++ a ++ t). change ((c :: a) ++ x) with ([] ++ [c] ++ a ++ x). constructor; auto. constructor. Qed.
(* the first run *)
Lemma utext_run : forall t x, rfc_utext t x -> t = [] \/ exists w v a s y, t = w ++ a ++ s /\ x = v ++ a ++ y /\ rfc_oFWS w v /\ chars1 rfc_VCHAR a /\ no_vchar s /\ rfc_utext s y.
Proof.
  intros t x H. induction H as [|w v c t x Hw Hc Ht IH]; [now left|]. right. destruct IH as [->|(w1 & v1 & a & s & y & -> & -> & Hw1 & Ha & Hs & Hu)].
  - exists w, v, [c], [], x. split; [now rewrite app_nil_r|]. split; [reflexivity|]. split; auto. split; [split; [discriminate|apply Forall_cons; [assumption|constructor]]|]. split; [discriminate|auto].
  - destruct Hw1 as [|w1 v1 Hw1].
    + exists w, v, ([c] ++ a), s, y. split; [now rewrite <- !app_assoc|]. split; [now rewrite <- !app_assoc|]. split; auto.
      split; [destruct Ha; split; [discriminate|now constructor]|]. auto.
    + exists w, v, [c], (w1 ++ a ++ s), (v1 ++ a ++ y). split; auto. split; auto. split; auto. split; [split; [discriminate|apply Forall_cons; [assumption|constructor]]|].
      split; [apply ends_no_vchar; eapply FWS_ends; eauto; reflexivity|].
      destruct Ha as [Hn Ha]. destruct a as [|z a]; [congruence|]. inversion Ha; subst. change (w1 ++ (z :: a) ++ s) with (w1 ++ [z] ++ a ++ s). change (v1 ++ (z :: a) ++ y) with (v1 ++ [z] ++ a ++ y).
      constructor; auto; [now constructor|]. now apply utext_cons_chars.
Qed.
Lemma clear_utext_exists : forall E n t x after, (length t < n)%nat -> rfc_utext t x -> exists v, clear_utext (textcode E) after t v.
Proof.
  intros E n. induction n as [|n IH]; intros t x after L H; [lia|]. apply utext_run in H as [->|(w & v & a & s & y & -> & -> & Hw & Ha & Hs & Hu)]; [exists []; constructor|].
  rewrite !app_length in L. assert (La : (0 < length a)%nat) by (destruct Ha as [Hn _]; destruct a; [congruence|cbn; lia]).
  pose proof (sound_encoded_word E (fun _ => False) a) as S. destruct (encoded_word E a) as [[r d]|e|k] eqn:P; [| |destruct S].
  - destruct S as (e & -> & Hd). pose proof (app_length e r) as Lr. assert (Le : (0 < length e)%nat) by (destruct e; [exfalso; now apply encoded_word_nonempty in Hd|cbn; lia]).
    destruct (IH (r ++ s) (r ++ y) true) as [z Hz]; [rewrite app_length; lia| |].
    + apply utext_cons_chars; auto. destruct Ha as [_ Ha]. now apply Forall_app in Ha as [_ Ha].
    + eexists. rewrite <- !app_assoc. eapply clear_utext_word; eauto.
  - destruct (IH s y false) as [z Hz]; [lia|auto|]. eexists. eapply clear_utext_run; eauto. intros e' d r He ->. rewrite (encoded_word_forward E e' d r He) in P. discriminate.
Qed.
Lemma clear_text_exists : forall E c x, rfc_unstructured c x -> exists v, clear_text (textcode E) c v.
Proof.
  intros E c x [t v w Ht Hw]. destruct (clear_utext_exists E (S (length t)) t v false ltac:(lia) Ht) as [z Hz]. exists z. now constructor.
Qed.
(* the shape of the text does not depend on the reading *)
Lemma mime_utext_shape : forall tc b t v, mime_utext tc b t v -> exists x, rfc_utext t x.
Proof.
  intros tc b t v H. induction H as [b|b w v c t x Hw Hc Ht [y IH]|b w v e d t x Hw He Ht [y IH]].
  - exists []. constructor.
  - exists (v ++ [c] ++ y). now constructor.
  - apply encoded_word_vchars in He as [Hn He]. destruct e as [|z e]; [congruence|]. inversion He; subst. exists (v ++ [z] ++ e ++ y). change (w ++ (z :: e) ++ t) with (w ++ [z] ++ e ++ t).
    constructor; auto. now apply utext_cons_chars.
Qed.
Lemma clear_utext_sub : forall tc b t v, clear_utext tc b t v -> mime_utext tc b t v.
Proof.
  intros tc b t v H. induction H as [b|b w v e d t x Hw He Ht IH|b w v a t x Hw Ha Hn Hv Ht IH].
  - constructor.
  - now constructor.
  - destruct Ha as [Hne Ha]. destruct a as [|z a]; [congruence|]. inversion Ha; subst. change (w ++ (z :: a) ++ t) with (w ++ [z] ++ a ++ t). change (v ++ (z :: a) ++ x) with (v ++ [z] ++ a ++ x).
    constructor; auto. now apply mime_utext_vchars.
Qed.
Lemma clear_text_sub : forall tc c v, clear_text tc c v -> mime_unstructured_text tc c v.
Proof. intros tc c v [t v' w Ht Hw]. constructor; auto. now apply clear_utext_sub. Qed.
Lemma mime_text_shape : forall tc c v, mime_unstructured_text tc c v -> exists x, rfc_unstructured c x.
Proof. intros tc c v [t v' w Ht Hw]. apply mime_utext_shape in Ht as [x Hx]. exists x. now constructor. Qed.
Lemma clear_text_shape : forall tc c v, clear_text tc c v -> exists x, rfc_unstructured c x.
Proof. intros. eapply mime_text_shape, clear_text_sub; eauto. Qed.

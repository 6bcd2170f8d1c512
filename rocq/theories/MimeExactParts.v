(* C53: parameters, one after the other. *)
From Coq Require Import Lia ZifyBool ZifyNat ZifyN Permutation.
From Verif Require Import Base Utf8 CharSets Combinators Whitespace QuotedString Common Time Address Percent MimeFields Fields
  Rfc5322 Rfc2047 Post CodecSpec RfcFields SoundBase SoundTime TagNoCase ParamProofs SoundFields Steps Complete CompleteFields Forward ForwardText ForwardAddr
  ForwardList ForwardTime ForwardMime ForwardParams ForwardParts ForwardMimeFields LineSpec LinedFacts PercentProofs ExactSpec MimeExactSpec.
Local Open Scope N_scope.

(* ---- white space before the line end ---- *)
Lemma inline_blanks : forall w, chars rfc_WSP w -> inline_cfws w.
Proof. intros w H. rewrite <- (app_nil_r w). apply inline_blank; [exact H|constructor]. Qed.
Lemma blanks_stay : forall w i, chars rfc_WSP w -> ends is_wsp i -> skip_cfws (w ++ CRLF ++ i) = Ok (w ++ CRLF ++ i).
Proof.
  intros w i Hw Hi. destruct (fws_blank_crlf w i Hw Hi) as [e He]. unfold skip_cfws, cfws. cbn [match_parsers].
  unfold real_cfws, fws_comment, optional. rewrite He. cbn [attempt bind map_err].
  destruct (comment_err (w ++ CRLF ++ i)) as [e' He']; [apply blank_ends; auto|]. rewrite He'. reflexivity.
Qed.
Lemma skip_end_blanks : forall t w i, rfc_oCFWS t -> chars rfc_WSP w -> ends is_wsp i -> exists w', chars rfc_WSP w' /\ skip_cfws (t ++ w ++ CRLF ++ i) = Ok (w' ++ CRLF ++ i).
Proof.
  intros t w i Ht Hw Hi. apply cfws_parts_of in Ht as (t1 & u & v & -> & T & U).
  assert (F : (exists w', u ++ w = w' /\ chars rfc_WSP w') \/ (exists a b, u ++ w = a ++ CRLF ++ b /\ chars rfc_WSP a /\ chars1 rfc_WSP b)).
  { destruct U as [|u v [u' [_ U]|a b A [B1 B2]]].
    - left. exists w. auto.
    - left. exists (u' ++ w). split; [reflexivity|]. now apply Forall_app.
    - right. exists a, (b ++ w). split; [now rewrite <- !app_assoc|]. split; [exact A|]. split; [destruct b; [congruence|discriminate]|now apply Forall_app]. }
  rewrite <- app_assoc. rewrite (app_assoc u). destruct F as [(w' & -> & W)|(a & b & -> & A & B)].
  - exists w'. split; [exact W|]. destruct T as [->|T]; [now apply blanks_stay|].
    destruct (fws_blank_crlf w' i W Hi) as [e He]. destruct (real_cfws_forward t1 [] (w' ++ CRLF ++ i) None) as [x Hx]; [exact T|cbn [app]; unfold optional; now rewrite He|apply blank_ends; auto|].
    cbn [app] in Hx. unfold skip_cfws, cfws. cbn [match_parsers]. rewrite Hx. reflexivity.
  - exists []. split; [constructor|]. rewrite app_nil_l. apply (cfws_before_fold t1 (a ++ CRLF ++ b) (a ++ b)); [exact T|now constructor|reflexivity|]. apply settled_fold. apply B.
Qed.
Lemma cfws_inline : forall t x, rfc_oCFWS t -> inline_cfws x -> exists t' w, t ++ x = t' ++ w /\ rfc_oCFWS t' /\ chars rfc_WSP w.
Proof.
  intros t x Ht [w w' Hw Hw'|w c w' Hw Hc Hw'].
  - exists t, (w ++ w'). split; [reflexivity|]. split; [exact Ht|now apply Forall_app].
  - exists (t ++ w ++ c), w'. split; [now rewrite <- !app_assoc|]. split; [|exact Hw']. apply cfws_parts_of in Ht as (t1 & u & v & -> & T & U).
    assert (J : exists z, rfc_oFWS (u ++ w) z). { destruct U as [|u v U]; [eexists; now apply blanks_oFWS|]. destruct w as [|b w]; [rewrite app_nil_r; eexists; constructor; exact U|]. destruct U as [u' [U1 U]|a b' A [B1 B2]].
      - eexists. constructor. constructor. split; [destruct u'; [congruence|discriminate]|now apply Forall_app].
      - eexists. rewrite <- !app_assoc. constructor. constructor; [exact A|]. split; [destruct b'; [congruence|discriminate]|now apply Forall_app]. }
    destruct J as [z J]. replace ((t1 ++ u) ++ w ++ c) with ((t1 ++ ((u ++ w) ++ c ++ [])) ++ []) by now rewrite !app_nil_r, <- !app_assoc.
    apply (comments_ofws _ [] []); [|constructor]. apply comments_glue; [exact T|]. eapply comments_join; eauto.
Qed.
Lemma skip_end : forall t x i, rfc_oCFWS t -> inline_cfws x -> ends is_wsp i -> exists w', chars rfc_WSP w' /\ skip_cfws (t ++ x ++ CRLF ++ i) = Ok (w' ++ CRLF ++ i).
Proof.
  intros t x i Ht Hx Hi. destruct (cfws_inline t x Ht Hx) as (t' & w & E & Ht' & Hw). rewrite app_assoc, E, <- app_assoc. now apply skip_end_blanks.
Qed.
Lemma skip_total : forall z, exists s, skip_cfws z = Ok s.
Proof.
  intros z. unfold skip_cfws. pose proof (sound_cfws (fun _ => False) z) as S. destruct (cfws z) as [[r v]|e|k]; cbn [attempt]; [eauto|eauto|destruct S].
Qed.

(* ---- lists of items ---- *)
(* what is left in front of the text z *)
Definition gap (q : bool) (s z : bytes) : Prop := if q then exists t, rfc_oCFWS t /\ skip_cfws (t ++ z) = Ok s else s = z.
Lemma gap_end : forall q s x i, gap q s (x ++ CRLF ++ i) -> inline_cfws x -> ends is_wsp i -> exists x', inline_cfws x' /\ s = x' ++ CRLF ++ i.
Proof.
  intros [] s x i H Hx Hi; [|exists x; auto]. destruct H as (t & Ht & H). destruct (skip_end t x i Ht Hx Hi) as (w & Hw & H'). rewrite H in H'. injection H' as ->. exists w. split; [now apply inline_blanks|reflexivity].
Qed.
Lemma gap_before : forall q s w y, gap q s (w ++ 59 :: y) -> rfc_oCFWS w -> exists l, rfc_oCFWS l /\ s = l ++ 59 :: y.
Proof.
  intros [] s w y H Hw; [|exists w; auto]. destruct H as (t & Ht & H). destruct (two_cfws t w (59 :: y) Ht Hw) as (c' & Hc & H'); [apply starts_visible_cons; apply vis59|]. rewrite H in H'. injection H' as ->. exists c'. auto.
Qed.

Section Items.
Variables (A : Type) (p : parser A) (P : bytes -> bool -> bytes -> A -> Prop) (i : bytes).
(* one item, in front of rest *)
Hypothesis P_forward : forall rest q c a, P rest q c a -> ends is_token_char (rest ++ i) -> (exists z, rest = z ++ CRLF) ->
  exists w y t, c = w ++ 59 :: y ++ t /\ rfc_oCFWS w /\ rfc_oCFWS t /\ (q = false -> t = []) /\
   forall l j, rfc_oCFWS l -> (if q then skip_cfws (t ++ rest ++ i) = Ok j else j = rest ++ i) -> p (l ++ 59 :: y ++ t ++ rest ++ i) = Ok (j, a).
Hypothesis P_head : forall rest q c a, P rest q c a -> exists w y, c = w ++ 59 :: y /\ rfc_oCFWS w.

Lemma items_token_end : forall rest q cs l, items P rest q cs l -> ends is_token_char (rest ++ i) -> ends is_token_char (cs ++ rest ++ i).
Proof.
  intros rest q cs l H Hr. assert (X : forall r0 q0 c a, P r0 q0 c a -> forall z, ends is_token_char (c ++ z)).
  { intros r0 q0 c a Hc z. destruct (P_head _ _ _ _ Hc) as (w & y & -> & Hw). rewrite <- app_assoc. cbn [app]. apply oCFWS_ends; auto; reflexivity. }
  destruct H as [|q c a Hc|q q' c a cs b l Hc H]; [exact Hr|eapply X; eauto|]. rewrite <- app_assoc. eapply X; eauto.
Qed.
Lemma items_read : forall rest q cs l, items P rest q cs l -> ends is_token_char (rest ++ i) -> (exists z, rest = z ++ CRLF) -> forall q0 s, gap q0 s (cs ++ rest ++ i) ->
  exists s' q', gap q' s' (rest ++ i) /\ (l <> [] -> q' = q) /\ (l = [] -> q' = q0) /\ forall e, p s' = Err e -> steps p s l s'.
Proof.
  intros rest q cs l H Hr Hz. induction H as [|q c a Hc|q q' c a cs b l Hc H IH]; intros q0 s Hs.
  - exists s, q0. split; [exact Hs|]. split; [congruence|]. split; [auto|]. intros e He. eapply steps_stop; eauto.
  - destruct (P_forward _ _ _ _ Hc Hr Hz) as (w & y & t & -> & Hw & Ht & Hq & F). rewrite <- !app_assoc in Hs. cbn [app] in Hs. rewrite <- !app_assoc in Hs.
    destruct (gap_before q0 s w (y ++ t ++ rest ++ i) Hs Hw) as (l0 & Hl & ->). destruct (skip_total (t ++ rest ++ i)) as [j Hj].
    exists (if q then j else rest ++ i), q. split; [destruct q; [exists t; auto|reflexivity]|]. split; [auto|]. split; [discriminate|]. intros e He. apply (steps_more p _ (if q then j else rest ++ i) a); [apply F; [exact Hl|destruct q; auto]| |eapply steps_stop; exact He].
    apply skip_shorter in Hj. destruct q; rewrite !app_length in *; cbn [length]; rewrite !app_length; lia.
  - assert (Hr' : ends is_token_char ((cs ++ rest) ++ i)) by (rewrite <- app_assoc; eapply items_token_end; eauto).
    assert (Hz' : exists z, cs ++ rest = z ++ CRLF) by (destruct Hz as [z ->]; exists (cs ++ z); now rewrite app_assoc).
    destruct (P_forward _ _ _ _ Hc Hr' Hz') as (w & y & t & -> & Hw & Ht & Hq & F). rewrite <- !app_assoc in Hs. cbn [app] in Hs. rewrite <- !app_assoc in Hs.
    destruct (gap_before q0 s w (y ++ t ++ cs ++ rest ++ i) Hs Hw) as (l0 & Hl & ->). destruct (skip_total (t ++ cs ++ rest ++ i)) as [j Hj].
    destruct (IH q' (if q' then j else cs ++ rest ++ i)) as (s' & q2 & G & G1 & G2 & S). { destruct q'; [exists t; auto|reflexivity]. }
    exists s', q2. split; [exact G|]. split; [intros _; apply G1; discriminate|]. split; [discriminate|]. intros e He. specialize (S e He).
    apply (steps_more p _ (if q' then j else cs ++ rest ++ i) a); [|  |exact S]; [specialize (F l0 (if q' then j else cs ++ rest ++ i) Hl); rewrite <- !app_assoc in F; apply F; destruct q'; auto|].
    apply skip_shorter in Hj. destruct q'; rewrite !app_length in *; cbn [length]; rewrite !app_length; lia.
Qed.
End Items.

(* ---- values ---- *)
Lemma quoted_not_token : forall l b z, rfc_oCFWS l -> exists e, token (l ++ [34] ++ b ++ z) = Err e.
Proof.
  intros l b z Hl. unfold token. destruct (take_while1_err is_token_char (l ++ [34] ++ b ++ z)) as [e ->]; [|cbn; eauto]. apply oCFWS_ends; auto; reflexivity.
Qed.
Lemma value_reads : forall q c v z, mime_value q c v -> ends is_token_char z -> exists y t, c = y ++ t /\ rfc_oCFWS t /\ (q = false -> t = []) /\
  forall j, (if q then skip_cfws (t ++ z) = Ok j else j = z) -> match_parsers [token; quoted_string] (y ++ t ++ z) = Ok (j, v).
Proof.
  intros q c v z [c' Hc|c' u Hc] Hz.
  - exists c', []. split; [now rewrite app_nil_r|]. split; [constructor|]. split; [auto|]. intros j ->. cbn [match_parsers app]. rewrite (token_forward c' z) by auto. reflexivity.
  - destruct Hc as [l b v' r Hl Hb Hr]. exists (l ++ [34] ++ b ++ [34]), r. split; [now rewrite <- !app_assoc|]. split; [exact Hr|]. split; [discriminate|]. intros j Hj. cbn [match_parsers].
    rewrite <- !app_assoc. destruct (quoted_not_token l b ([34] ++ r ++ z) Hl) as [e He]. rewrite He. cbn [attempt]. rewrite (quoted_string_core l b v' (r ++ z)) by auto. rewrite Hj. reflexivity.
Qed.
Lemma param_reads : forall i rest q c a, mime_param rest q c a -> ends is_token_char (rest ++ i) ->
  exists w y t, c = w ++ 59 :: y ++ t /\ rfc_oCFWS w /\ rfc_oCFWS t /\ (q = false -> t = []) /\
   forall l j, rfc_oCFWS l -> (if q then skip_cfws (t ++ rest ++ i) = Ok j else j = rest ++ i) -> parameter (l ++ 59 :: y ++ t ++ rest ++ i) = Ok (j, a).
Proof.
  intros i rest q c p [w w' n a x e q' c' v Hw Hw' Hn Hc] Hr. destruct (value_reads q' c' v (rest ++ i) Hc Hr) as (y & t & -> & Ht & Hq & F).
  exists w, (w' ++ n ++ bs "=" ++ y), t. split; [now rewrite <- !app_assoc|]. split; [exact Hw|]. split; [exact Ht|]. split; [exact Hq|]. intros l j Hl Hj. specialize (F j Hj).
  rewrite <- !app_assoc. change (59 :: w' ++ n ++ bs "=" ++ y ++ t ++ rest ++ i) with (bs ";" ++ w' ++ n ++ bs "=" ++ y ++ t ++ rest ++ i).
  unfold parameter. rewrite item_start by (auto; eapply clear_name_token; eauto).
  destruct (param_name_forward n (a, x, e) (y ++ t ++ rest ++ i) Hn) as (a' & Ha & Hp). cbn [fst snd] in Ha, Hp. change (bs "=" ++ y ++ t ++ rest ++ i) with (61 :: y ++ t ++ rest ++ i). rewrite Hp. cbn [bind].
  change (61 :: y ++ t ++ rest ++ i) with (bs "=" ++ y ++ t ++ rest ++ i). rewrite tag_app. cbn [bind]. rewrite F. cbn [bind]. rewrite lowercase_fold, Ha. reflexivity.
Qed.

(* ---- Content-Disposition ---- *)
Definition date_names : list (bytes * bytes) :=
  [(bs "creation-date", bs "CREATION-DATE"); (bs "modification-date", bs "MODIFICATION-DATE"); (bs "read-date", bs "READ-DATE")].
Lemma dated_token : forall name mk n, In (name, mk) dated -> same_nocase n (bs name) -> mime_token n.
Proof.
  intros name mk n H Hs. unfold dated in H. cbn [In] in H. destruct H as [H|[H|[H|[]]]]; injection H as <- <-; [now apply creation_token|now apply modification_token|now apply read_token].
Qed.
(* no date: the whole text after "=" up to the end of the header matters *)
Lemma lined_prefix : forall t a b, lined t -> t = a ++ CRLF ++ b -> exists w b', b = w :: b' /\ rfc_WSP w.
Proof.
  intros t a b H. revert a b. induction H as [|c t Hc H IH|w t Hw H IH]; intros a b E.
  - destruct a; discriminate.
  - destruct a as [|x a]; cbn in E; injection E as -> E; [exfalso; unfold rfc_VCHAR, rfc_WSP in Hc; lia|]. eapply IH; eauto.
  - destruct a as [|x a]; cbn in E; [injection E as <-; eauto|]. injection E as <- E. destruct a as [|x a]; cbn in E; [discriminate|]. injection E as <- E. destruct a as [|x a]; cbn in E.
    + injection E as -> E. unfold rfc_WSP in Hw. lia.
    + injection E as -> E. eapply IH; eauto.
Qed.
Lemma quoted_inside : forall t h i z, lined t -> ends is_wsp i -> (h ++ CRLF) ++ i = t ++ [34] ++ z -> exists z', h = t ++ [34] ++ z'.
Proof.
  intros t h i z Ht Hi E. rewrite <- app_assoc in E. apply app_eq_app in E as (u & [[-> E]|[-> E]]).
  - destruct u as [|x u]; [discriminate|]. injection E as <- E. exists u. reflexivity.
  - exfalso. destruct u as [|x [|y u]].
    + discriminate.
    + cbn in E. injection E as _ E. discriminate.
    + cbn in E. injection E as <- <- E. destruct (lined_prefix _ h u Ht eq_refl) as (w & b' & -> & Hw). destruct i as [|k i]; [discriminate|]. injection E as -> _. cbn in Hi. apply wsp_spec in Hw. congruence.
Qed.
Lemma date_time_cases : forall E i, (exists e, date_time E i = Err e) \/ exists r d, date_time E i = Ok (r, d).
Proof.
  intros E i. pose proof (sound_date_value E (fun _ => False) i) as S. destruct (date_time E i) as [[r d]|e|k]; [eauto|eauto|destruct S].
Qed.
Lemma no_date : forall E e1 e2 l w n c i, nocase_pair e1 e2 = true -> Forall (fun x => forall y, fold_case y = fold_case x -> is_token_char y = true) e1 -> rfc_oCFWS l -> rfc_oCFWS w -> mime_token n ->
  (same_nocase n e1 -> forall t d z, rfc_date_value t d -> c ++ i <> [34] ++ t ++ [34] ++ z) -> exists e, date_parameter E e1 e2 (l ++ bs ";" ++ w ++ n ++ 61 :: c ++ i) = Err e.
Proof.
  intros E e1 e2 l w n c i Hp He Hl Hw Hn H. destruct (bytes_eqb (map fold_case n) (map fold_case e1)) eqn:B.
  - apply bytes_eqb_eq in B. specialize (H B). unfold date_parameter. rewrite item_start by auto. rewrite tag_no_case_ok by auto. cbn [bind].
    destruct (c ++ i) as [|x z] eqn:X; [rewrite (tag_err [61; DQUOTE]) by reflexivity; cbn; eauto|]. destruct (N.eqb_spec x 34) as [->|N].
    + change (61 :: 34 :: z) with ([61; DQUOTE] ++ z). rewrite tag_app. cbn [bind]. destruct (date_time_cases E z) as [[e ->]|(r & d & D)]; [cbn; eauto|]. rewrite D. cbn [bind].
      pose proof (sound_date_value E (fun _ => False) z) as S. rewrite D in S. destruct S as (t & -> & S). destruct (tag_inv [DQUOTE] "TAG ERROR: In a Content-Disposition header, a date parameter value must be closed by a `""`." r) as [(u & -> & Y)|[_ Y]]; rewrite Y; cbn [bind]; [|eauto].
      exfalso. apply (H t d u S). reflexivity.
    + rewrite (tag_err [61; DQUOTE]); [cbn; eauto|]. change ((34 =? x) && starts_with z [] = false). destruct (N.eqb_spec 34 x) as [Y|]; [congruence|reflexivity].
  - apply date_param_none; auto. intros X. apply bytes_eqb_eq in X. congruence.
Qed.
Definition token_name (n : bytes) : Prop := Forall (fun x => forall y, fold_case y = fold_case x -> is_token_char y = true) n.
Lemma creation_name : token_name (bs "creation-date"). Proof. unfold token_name. keyword_chars. Qed.
Lemma modification_name : token_name (bs "modification-date"). Proof. unfold token_name. keyword_chars. Qed.
Lemma read_name : token_name (bs "read-date"). Proof. unfold token_name. keyword_chars. Qed.
Ltac skip_date E l w n r a b N := let e := fresh "e" in let He := fresh "He" in
  destruct (date_param_none E (bs a) (bs b) l w n r) as [e He]; [reflexivity|keyword_chars|assumption|assumption|assumption|apply N; [cbn; tauto|discriminate]|];
  match goal with |- context [date_parameter E (bs a) (bs b) ?y] => replace (date_parameter E (bs a) (bs b) y) with (@Err (bytes * date_time_t) e) by (symmetry; exact He) end; cbn [bind attempt].
Lemma item_reads : forall E i rest q c a, ends is_wsp i -> mime_item rest q c a -> ends is_token_char (rest ++ i) -> (exists z, rest = z ++ CRLF) ->
  exists w y t, c = w ++ 59 :: y ++ t /\ rfc_oCFWS w /\ rfc_oCFWS t /\ (q = false -> t = []) /\
   forall l j, rfc_oCFWS l -> (if q then skip_cfws (t ++ rest ++ i) = Ok j else j = rest ++ i) -> disposition_item_parser E (l ++ 59 :: y ++ t ++ rest ++ i) = Ok (j, a).
Proof.
  intros E i rest q c a Hi Hc Hr [z0 Hz]. destruct Hc as [w w' n q c v Hw Hw' Hn Hc|name mk w w' n c d Hin Hw Hw' Hn Hc|w w' n a x e q c v Hw Hw' Hn Hc Hno HD].
  - destruct (value_reads q c v (rest ++ i) Hc Hr) as (y & t & -> & Ht & Hq & F). exists w, (w' ++ n ++ bs "=" ++ y), t. split; [now rewrite <- !app_assoc|]. split; [exact Hw|]. split; [exact Ht|]. split; [exact Hq|].
    intros l j Hl Hj. specialize (F j Hj). rewrite <- !app_assoc. change (59 :: w' ++ n ++ bs "=" ++ y ++ t ++ rest ++ i) with (bs ";" ++ w' ++ n ++ bs "=" ++ y ++ t ++ rest ++ i).
    unfold disposition_item_parser. cbn [match_parsers]. unfold pmap. unfold filename_parameter. rewrite item_start by (auto; now apply filename_token).
    rewrite tag_no_case_ok by (auto; reflexivity). cbn [bind]. rewrite tag_app. cbn [bind]. rewrite F. reflexivity.
  - exists w, (w' ++ n ++ bs "=" ++ [34] ++ c ++ [34]), []. split; [now rewrite <- !app_assoc, app_nil_r|]. split; [exact Hw|]. split; [constructor|]. split; [auto|]. intros l j Hl ->. rewrite app_nil_l.
    pose proof (dated_token _ _ _ Hin Hn) as T. rewrite <- !app_assoc.
    change (59 :: w' ++ n ++ bs "=" ++ [34] ++ c ++ [34] ++ rest ++ i) with (bs ";" ++ w' ++ n ++ bs "=" ++ [34] ++ c ++ [34] ++ rest ++ i).
    assert (N : forall name', In name' ["filename"; "creation-date"; "modification-date"; "read-date"]%string -> name' <> name -> ~ same_nocase n (bs name')).
    { intros name' H1 H2 X. unfold same_nocase in *. rewrite Hn in X. unfold dated in Hin. cbn [In] in Hin, H1. destruct Hin as [Y|[Y|[Y|[]]]]; injection Y as <- <-; destruct H1 as [<-|[<-|[<-|[<-|[]]]]]; try congruence; vm_compute in X; discriminate. }
    unfold disposition_item_parser. cbn [match_parsers]. unfold pmap.
    destruct (filename_none E l w' n ([34] ++ c ++ [34] ++ rest ++ i)) as [e1 He1]; auto; [apply N; [cbn; tauto|intros <-; destruct Hin as [Y|[Y|[Y|[]]]]; discriminate]|]. use_at filename_parameter He1. cbn [bind attempt].
    unfold dated in Hin. cbn [In] in Hin. destruct Hin as [Y|[Y|[Y|[]]]]; injection Y as <- <-.
    + rewrite date_param_forward with (d := d) by (auto; reflexivity). reflexivity.
    + skip_date E l w' n ([34] ++ c ++ [34] ++ rest ++ i) "creation-date"%string "CREATION-DATE"%string N. rewrite date_param_forward with (d := d) by (auto; reflexivity). reflexivity.
    + skip_date E l w' n ([34] ++ c ++ [34] ++ rest ++ i) "creation-date"%string "CREATION-DATE"%string N. skip_date E l w' n ([34] ++ c ++ [34] ++ rest ++ i) "modification-date"%string "MODIFICATION-DATE"%string N.
      rewrite date_param_forward with (d := d) by (auto; reflexivity). reflexivity.
  - destruct (value_reads q c v (rest ++ i) Hc Hr) as (y & t & -> & Ht & Hq & F). destruct (param_reads i rest q (w ++ bs ";" ++ w' ++ n ++ bs "=" ++ y ++ t) (a, x, e, v)) as (w1 & y1 & t1 & X1 & _ & _ & _ & _); [constructor; auto|auto|]. clear w1 y1 t1 X1.
    exists w, (w' ++ n ++ bs "=" ++ y), t. split; [now rewrite <- !app_assoc|]. split; [exact Hw|]. split; [exact Ht|]. split; [exact Hq|]. intros l j Hl Hj. specialize (F j Hj). rewrite <- !app_assoc.
    change (59 :: w' ++ n ++ bs "=" ++ y ++ t ++ rest ++ i) with (bs ";" ++ w' ++ n ++ 61 :: y ++ t ++ rest ++ i). pose proof (clear_name_token n _ Hn) as T.
    assert (D : forall name mk, In (name, mk) dated -> same_nocase n (bs name) -> forall t0 d z, rfc_date_value t0 d -> (y ++ t) ++ rest ++ i <> [34] ++ t0 ++ [34] ++ z).
    { intros name mk H1 H2 t0 d z H3 X. rewrite Hz in X. destruct (quoted_inside ([34] ++ t0) ((y ++ t) ++ z0) i z) as [z' Y]; [constructor; [left; unfold rfc_VCHAR; lia|eapply lined_date; eauto]|exact Hi|rewrite <- !app_assoc in *; exact X|].
      apply (HD name mk t0 d (z' ++ CRLF) H1 H2 H3). rewrite Hz, app_assoc, Y. now rewrite <- !app_assoc. }
    rewrite <- !app_assoc in D. unfold disposition_item_parser. cbn [match_parsers]. unfold pmap.
    destruct (filename_none E l w' n (y ++ t ++ rest ++ i)) as [e1 He1]; auto. use_at filename_parameter He1. cbn [bind attempt].
    rewrite (app_assoc y t) in *.
    destruct (no_date E (bs "creation-date") (bs "CREATION-DATE") l w' n (y ++ t) (rest ++ i)) as [e2 He2]; auto; [exact creation_name|eapply (D "creation-date"%string); unfold dated; cbn; tauto|]. rewrite He2. cbn [bind attempt].
    destruct (no_date E (bs "modification-date") (bs "MODIFICATION-DATE") l w' n (y ++ t) (rest ++ i)) as [e3 He3]; auto; [exact modification_name|eapply (D "modification-date"%string); unfold dated; cbn; tauto|]. rewrite He3. cbn [bind attempt].
    destruct (no_date E (bs "read-date") (bs "READ-DATE") l w' n (y ++ t) (rest ++ i)) as [e4 He4]; auto; [exact read_name|eapply (D "read-date"%string); unfold dated; cbn; tauto|]. rewrite He4. cbn [bind attempt].
    unfold parameter. change (n ++ 61 :: (y ++ t) ++ rest ++ i) with (n ++ bs "=" ++ (y ++ t) ++ rest ++ i). rewrite item_start by auto.
    destruct (param_name_forward n (a, x, e) ((y ++ t) ++ rest ++ i) Hn) as (a' & Ha & Hp). cbn [fst snd] in Ha, Hp. change (bs "=" ++ (y ++ t) ++ rest ++ i) with (61 :: (y ++ t) ++ rest ++ i). rewrite Hp. cbn [bind].
    change (61 :: (y ++ t) ++ rest ++ i) with (bs "=" ++ (y ++ t) ++ rest ++ i). rewrite tag_app. cbn [bind]. rewrite F. cbn [bind]. rewrite lowercase_fold, Ha. reflexivity.
Qed.

(* Completeness: the parts of the MIME headers (tokens, keywords, numbers, parameters). *)
From Coq Require Import Lia ZifyBool ZifyNat ZifyN Permutation.
From Verif Require Import Base Utf8 CharSets Combinators Whitespace QuotedString Common Time Address Percent MimeFields
  Rfc5322 Rfc2047 Post CodecSpec RfcFields SoundBase SoundTime TagNoCase ParamProofs SoundFields Steps Complete CompleteFields Forward ForwardText ForwardAddr
  ForwardTime ForwardParams.
Local Open Scope N_scope.

(* ---- what may stand before the line end ---- *)
Lemma blanks_oFWS : forall w, chars rfc_WSP w -> rfc_oFWS w w.
Proof. intros [|c w] H; [constructor|]. constructor. constructor. split; [discriminate|exact H]. Qed.
Lemma blank_ends : forall (f : byte -> bool) w i, chars rfc_WSP w -> f 32 = false -> f 9 = false -> f 13 = false -> ends f (w ++ CRLF ++ i).
Proof. intros f w i Hw H1 H2 H3. destruct w as [|c w]; [exact H3|]. apply (wsp_ends f (c :: w)); auto. split; auto. discriminate. Qed.
Lemma skip_inline : forall x i, inline_cfws x -> ends is_wsp i ->
  exists w, chars rfc_WSP w /\ skip_cfws (x ++ CRLF ++ i) = Ok (w ++ CRLF ++ i) /\ (length w <= length x)%nat.
Proof.
  assert (B : forall w i, chars rfc_WSP w -> ends is_wsp i -> skip_cfws (w ++ CRLF ++ i) = Ok (w ++ CRLF ++ i)).
  { intros w i Hw Hi. destruct (fws_blank_crlf w i Hw Hi) as [e He]. unfold skip_cfws, cfws. cbn [match_parsers].
    unfold real_cfws, fws_comment, optional. rewrite He. cbn [attempt bind map_err].
    destruct (comment_err (w ++ CRLF ++ i)) as [e' He']; [apply blank_ends; auto|]. rewrite He'. reflexivity. }
  intros x i Hx Hi. destruct Hx as [w w' Hw Hw'|w c w' Hw Hc Hw'].
  - exists (w ++ w'). split; [now apply Forall_app|]. split; auto. apply B; auto. now apply Forall_app.
  - exists w'. split; auto. split; [|rewrite !app_length; lia]. rewrite <- !app_assoc.
    destruct (fws_blank_crlf w' i Hw' Hi) as [e He].
    destruct (real_cfws_forward (w ++ c) [] (w' ++ CRLF ++ i) None) as [v Hv].
    + eapply comments_one; eauto. now apply blanks_oFWS.
    + cbn [app]. unfold optional. rewrite He. reflexivity.
    + apply blank_ends; auto.
    + cbn [app] in Hv. rewrite <- app_assoc in Hv. unfold skip_cfws, cfws. cbn [match_parsers]. rewrite Hv. reflexivity.
Qed.
Lemma inline_forward : forall x i, inline_cfws x -> ignore_inline_cfws (x ++ CRLF ++ i) = Ok (CRLF ++ i, tt).
Proof.
  intros x i Hx. unfold ignore_inline_cfws, triplet. destruct Hx as [w w' Hw Hw'|w c w' Hw Hc Hw']; rewrite <- !app_assoc.
  - rewrite app_assoc. rewrite (take_while_app is_wsp rfc_WSP (w ++ w') (CRLF ++ i) wsp_spec wsp_ascii); [|now apply Forall_app|reflexivity]. cbn [bind].
    unfold optional. destruct (comment_err (CRLF ++ i)) as [e ->]; [reflexivity|]. cbn [attempt bind].
    pose proof (take_while_app is_wsp rfc_WSP [] (CRLF ++ i) wsp_spec wsp_ascii (Forall_nil _) eq_refl) as T. cbn [app] in T.
    change (CRLF ++ i) with (13 :: 10 :: i) in *. rewrite T. reflexivity.
  - rewrite (take_while_app is_wsp rfc_WSP w (c ++ w' ++ CRLF ++ i) wsp_spec wsp_ascii); [|exact Hw|apply comment_head in Hc as [b ->]; reflexivity]. cbn [bind].
    unfold optional. rewrite (comment_complete c) by auto. cbn [attempt bind].
    rewrite (take_while_app is_wsp rfc_WSP w' (CRLF ++ i) wsp_spec wsp_ascii); [|exact Hw'|reflexivity]. reflexivity.
Qed.

(* ---- tokens and keywords ---- *)
Lemma token_forward : forall c i, mime_token c -> ends is_token_char i -> token (c ++ i) = Ok (i, c).
Proof. intros c i Hc Hi. unfold token. now rewrite (take_while1_app is_token_char mime_token_char c i token_char_spec token_char_ascii). Qed.
Lemma token_visible : forall c, mime_token_char c -> visible c /\ c <> 40.
Proof. intros c [H1 H2]. split; [unfold visible; lia|]. intros ->. apply H2. cbn. tauto. Qed.
Lemma token_ends : forall (f : byte -> bool) c i, mime_token c -> (forall x, mime_token_char x -> f x = false) -> ends f (c ++ i).
Proof. intros f c i Hc Hf. now apply (chars1_ends f mime_token_char). Qed.
Lemma starts_nocase_prefix : forall n c r, starts_nocase (c ++ r) n = true -> ends is_token_char r ->
  Forall (fun x => forall y, fold_case y = fold_case x -> is_token_char y = true) n -> exists x y, c = x ++ y /\ same_nocase x n.
Proof.
  intros n c r H Hr Hn. apply starts_nocase_spec in H as (m & t & H & Hm).
  assert (X : exists y, c = m ++ y).
  { assert (F : Forall (fun x => is_token_char x = true) m).
    { revert n Hm Hn. clear. induction m as [|a m IH]; intros [|b n] Hm Hn; try discriminate; constructor.
      - inversion Hn; subst. injection Hm as Hm1 _. auto.
      - inversion Hn; subst. injection Hm as _ Hm. eapply IH; eauto. }
    revert c H. clear - F Hr. induction F as [|a m Ha F IH]; intros c H; [exists c; reflexivity|].
    destruct c as [|b c].
    - cbn in H. subst r. cbn in Hr. congruence.
    - inversion H; subst. destruct (IH c) as [y ->]; auto. exists y. reflexivity. }
  destruct X as [y ->]. eauto.
Qed.
Lemma nocase_app : forall x y n, same_nocase (x ++ y) n -> exists n1 n2, n = n1 ++ n2 /\ same_nocase x n1 /\ same_nocase y n2.
Proof.
  induction x as [|a x IH]; intros y n H.
  - exists [], n. repeat split; auto.
  - destruct n as [|b n]; [discriminate|]. injection H as H1 H2. destruct (IH y n H2) as (n1 & n2 & -> & H3 & H4). exists (b :: n1), n2. repeat split; auto.
    unfold same_nocase in *. cbn. congruence.
Qed.
Lemma keyword_forward : forall A E (l : list (bytes * bytes * string * A)) (other : bytes -> A) table c a i,
  Forall (fun '(e1, e2, msg, a) => nocase_pair e1 e2 = true /\ In (e1, a) table /\
    Forall (fun x => forall y, fold_case y = fold_case x -> is_token_char y = true) e1) l ->
  (forall n a, In (n, a) table -> exists e2 msg, In (n, e2, msg, a) l) ->
  (forall n a n' a' x y, In (n, a) table -> In (n', a') table -> n = x ++ y -> same_nocase x n' -> a = a' /\ y = []) ->
  clear_keyword table other c a -> ends is_token_char i ->
  match_parsers (keyword_parsers E l ++ [pmap (fun name => other (lowercase name)) token]) (c ++ i) = Ok (i, a).
Proof.
  intros A E l other table c a i Hl Ht Hp Hc Hi.
  (* before the keyword that matches, all fail *)
  assert (X : forall e1 b, In (e1, b) table -> starts_nocase (c ++ i) e1 = true ->
     Forall (fun x => forall y, fold_case y = fold_case x -> is_token_char y = true) e1 -> same_nocase c e1 /\ a = b).
  { intros e1 b Hin Hs He. destruct (starts_nocase_prefix e1 c i Hs Hi He) as (x & y & -> & Hx). inversion Hc as [n c' a' Hn Hs' E1|c' Hm Hno]; subst.
    - pose proof (nocase_app x y n Hs') as L.
      destruct L as (n1 & n2 & -> & L1 & L2). destruct (Hp (n1 ++ n2) a e1 b n1 n2 Hn Hin eq_refl) as [-> ->].
      + unfold same_nocase in *. congruence.
      + destruct y; [|discriminate]. rewrite app_nil_r in *. auto.
    - exfalso. eapply Hno; eauto. }
  assert (G : (exists n, In (n, a) table /\ same_nocase c n /\ exists e2 msg, In (n, e2, msg, a) l) \/
     (mime_token c /\ a = other (map fold_case c))).
  { inversion Hc; subst; [left|right; auto]. exists n. auto. }
  clear Hc Ht Hp. induction Hl as [|[[[e1 e2] msg] b] l (H1 & H2 & H3) Hl IH].
  - destruct G as [(n & _ & _ & ? & ? & [])|[Hm ->]]. cbn [keyword_parsers map app match_parsers]. unfold pmap. rewrite (token_forward c i) by auto. cbn [bind attempt].
    now rewrite lowercase_fold.
  - cbn [keyword_parsers map app match_parsers]. unfold pmap at 1. destruct (starts_nocase (c ++ i) e1) eqn:S.
    + destruct (X e1 b H2 S H3) as [X1 ->]. rewrite (tag_no_case_ok E e1 e2 msg c i) by auto. reflexivity.
    + destruct (tag_no_case_err E e1 e2 msg (c ++ i) H1 S) as [e ->]. cbn [bind attempt]. apply IH.
      destruct G as [(n & G1 & G2 & x2 & mx & [Hx|Hx])|G]; [|left; eauto 8|now right].
      inversion Hx; subst. rewrite (starts_nocase_app c i n G2) in S. discriminate.
Qed.
Ltac keyword_chars := match goal with |- Forall ?P ?l => let l' := eval vm_compute in l in change (Forall P l') end; repeat (apply Forall_cons; [intros y Hy; apply fold_or_swap in Hy as [->| ->]; reflexivity|]); apply Forall_nil.
Lemma starts_nocase_full : forall n n' x y, n = x ++ y -> same_nocase x n' -> starts_nocase n n' = true /\ (length n' = length n -> y = []).
Proof.
  intros n n' x y -> H. split; [now apply starts_nocase_app|]. intros L. apply nocase_length in H. rewrite app_length in L. destruct y; auto. cbn in L. lia.
Qed.
Ltac keyword_prefix := intros ? ? ? ? ? ? Hin Hin' Hxy Hs; destruct (starts_nocase_full _ _ _ _ Hxy Hs) as [Hst Hlen]; clear Hxy Hs;
  cbn in Hin, Hin'; repeat (destruct Hin as [Hin|Hin]; [inversion Hin; subst; clear Hin;
    repeat (destruct Hin' as [Hin'|Hin']; [inversion Hin'; subst; clear Hin'; (vm_compute in Hst; discriminate Hst) || (split; [reflexivity|apply Hlen; reflexivity])|]); destruct Hin'|]); destruct Hin.
Lemma mime_type_forward : forall E c t i, clear_keyword mime_types CUnknown c t -> ends is_token_char i -> mime_type E (c ++ i) = Ok (i, t).
Proof.
  intros E c t i Hc Hi. unfold mime_type.
  match goal with |- match_parsers [pmap _ (tag_no_case _ ?a1 ?b1 ?m1); pmap _ (tag_no_case _ ?a2 ?b2 ?m2); pmap _ (tag_no_case _ ?a3 ?b3 ?m3);
     pmap _ (tag_no_case _ ?a4 ?b4 ?m4); pmap _ (tag_no_case _ ?a5 ?b5 ?m5); pmap _ (tag_no_case _ ?a6 ?b6 ?m6); pmap _ (tag_no_case _ ?a7 ?b7 ?m7); _] _ = _ =>
    apply (keyword_forward _ E [(a1, b1, m1, CText); (a2, b2, m2, CMultipart); (a3, b3, m3, CApplication); (a4, b4, m4, CImage); (a5, b5, m5, CVideo);
       (a6, b6, m6, CAudio); (a7, b7, m7, CMessage)] CUnknown mime_types c t i) end; auto.
  - unfold mime_types. repeat apply Forall_cons; try apply Forall_nil; (split; [reflexivity|split; [cbn [In]; tauto|keyword_chars]]).
  - keyword_table.
  - keyword_prefix.
Qed.
Lemma encoding_name_forward : forall E c t i, clear_keyword mime_encodings UnknownEnc c t -> ends is_token_char i -> encoding_name E (c ++ i) = Ok (i, t).
Proof.
  intros E c t i Hc Hi. unfold encoding_name.
  match goal with |- match_parsers [pmap _ (tag_no_case _ ?a1 ?b1 ?m1); pmap _ (tag_no_case _ ?a2 ?b2 ?m2); pmap _ (tag_no_case _ ?a3 ?b3 ?m3);
     pmap _ (tag_no_case _ ?a4 ?b4 ?m4); pmap _ (tag_no_case _ ?a5 ?b5 ?m5); _] _ = _ =>
    apply (keyword_forward _ E [(a1, b1, m1, SevenBit); (a2, b2, m2, QuotedPrintableEnc); (a3, b3, m3, Base64Enc); (a4, b4, m4, HeightBit); (a5, b5, m5, Binary)]
      UnknownEnc mime_encodings c t i) end; auto.
  - unfold mime_encodings. repeat apply Forall_cons; try apply Forall_nil; (split; [reflexivity|split; [cbn [In]; tauto|keyword_chars]]).
  - keyword_table.
  - keyword_prefix.
Qed.
Lemma disposition_kind_forward : forall E c t i, clear_keyword mime_dispositions DUnknown c t -> ends is_token_char i -> disposition_kind E (c ++ i) = Ok (i, t).
Proof.
  intros E c t i Hc Hi. unfold disposition_kind.
  match goal with |- match_parsers [pmap _ (tag_no_case _ ?a1 ?b1 ?m1); pmap _ (tag_no_case _ ?a2 ?b2 ?m2); _] _ = _ =>
    apply (keyword_forward _ E [(a1, b1, m1, DInline); (a2, b2, m2, DAttachment)] DUnknown mime_dispositions c t i) end; auto.
  - unfold mime_dispositions. repeat apply Forall_cons; try apply Forall_nil; (split; [reflexivity|split; [cbn [In]; tauto|keyword_chars]]).
  - keyword_table.
  - keyword_prefix.
Qed.
Lemma clear_keyword_token : forall A (table : list (bytes * A)) other c a,
  Forall (fun '(n, a) => n <> [] /\ Forall (fun x => forall y, fold_case y = fold_case x -> is_token_char y = true) n) table ->
  clear_keyword table other c a -> mime_token c.
Proof.
  intros A table other c a Ht Hc. destruct Hc as [n c a Hn Hs|c Hm _]; auto. rewrite Forall_forall in Ht. apply Ht in Hn as [Hn1 Hn2]. split.
  - intros ->. destruct n; [now apply Hn1|discriminate Hs].
  - clear Hn1. revert c Hs. induction Hn2 as [|x n Hx Hn IH]; intros [|y c] Hs; try discriminate; constructor.
    + injection Hs as Hs _. apply token_char_spec. auto.
    + injection Hs as _ Hs. now apply IH.
Qed.
Ltac keyword_table_chars := repeat apply Forall_cons; try apply Forall_nil; (split; [discriminate|keyword_chars]).
Lemma mime_type_token : forall c t, clear_keyword mime_types CUnknown c t -> mime_token c.
Proof. intros c t. apply clear_keyword_token. unfold mime_types. keyword_table_chars. Qed.
Lemma encoding_token : forall c t, clear_keyword mime_encodings UnknownEnc c t -> mime_token c.
Proof. intros c t. apply clear_keyword_token. unfold mime_encodings. keyword_table_chars. Qed.
Lemma disposition_token : forall c t, clear_keyword mime_dispositions DUnknown c t -> mime_token c.
Proof. intros c t. apply clear_keyword_token. unfold mime_dispositions. keyword_table_chars. Qed.

(* ---- numbers ---- *)
Lemma decimal_grows : forall c acc, acc <= decimal_acc acc c.
Proof. intros c. induction c as [|x c IH]; intros acc; cbn [decimal_acc]; [lia|]. specialize (IH (10 * acc + (x - 48))). lia. Qed.
Lemma u8_loop_forward : forall c n acc i, (length (c ++ i) < n)%nat -> chars rfc_DIGIT c -> decimal_acc acc c < 256 -> ends is_digit i ->
  u8_number_loop n acc (c ++ i) = Ok (i, decimal_acc acc c).
Proof.
  induction c as [|x c IH]; intros n acc i Hn Hc Hd Hi; (destruct n as [|n]; [lia|]); cbn [u8_number_loop].
  - cbn [app]. destruct (digit_none i Hi) as [e ->]. reflexivity.
  - inversion Hc; subst. cbn [app]. rewrite digit_forward by auto. cbn [attempt]. cbn [decimal_acc] in *. pose proof (decimal_grows c (10 * acc + (x - 48))) as G.
    unfold u8_checked_mul, ok_or. destruct (N.ltb_spec (acc * 10) 256); [|lia]. cbn [bind]. unfold u8_checked_add, ok_or.
    destruct (N.ltb_spec (acc * 10 + (x - 48)) 256); [|lia]. cbn [bind]. replace (acc * 10 + (x - 48)) with (10 * acc + (x - 48)) by lia. apply IH; auto.
    cbn [app length] in Hn. lia.
Qed.
Lemma u8_number_forward : forall c i, chars1 rfc_DIGIT c -> number c < 256 -> ends is_digit i -> u8_number (c ++ i) = Ok (i, number c).
Proof.
  intros c i [Hc1 Hc2] Hn Hi. rewrite <- decimal_number in *. destruct c as [|x c]; [congruence|]. inversion Hc2; subst. unfold u8_number. cbn [app].
  rewrite digit_forward by auto. cbn [bind]. unfold decimal in *. cbn [decimal_acc] in *. replace (10 * 0 + (x - 48)) with (x - 48) in * by lia.
  apply u8_loop_forward; auto.
Qed.

(* ---- parameter names and values ---- *)
Lemma name_char_token : forall a, chars1 (fun x => mime_token_char x /\ x <> 42) a -> mime_token a.
Proof. intros a [H1 H2]. split; auto. eapply Forall_impl; [|exact H2]. cbn. tauto. Qed.
Lemma star_end : forall (f : byte -> bool) (e : bool) r, f 42 = false -> f 61 = false -> ends f ((if e then bs "*" else []) ++ 61 :: r).
Proof. intros f [] r H1 H2; assumption. Qed.
Lemma indexed_name_forward : forall n v r, indexed_param_name n v -> exists a, n = fst (fst (a, snd (fst v), snd v)) ++ skipn (length a) n /\
  map fold_case a = fst (fst v) /\ indexed_name (n ++ 61 :: r) = Ok (61 :: r, (a, snd (fst v), snd v)).
Proof.
  intros n v r [a c i e Ha Hc]. exists a. cbn [fst snd]. split; [now rewrite skipn_app_exact|]. split; auto. unfold indexed_name. rewrite <- !app_assoc.
  set (star := if e then bs "*" else []).
  assert (S42 : forall f : byte -> bool, f 42 = false -> f 61 = false -> ends f (c ++ star ++ 61 :: r)).
  { intros f H1 H2. destruct Hc as [|d Hd]; [now apply star_end|exact H1]. }
  pose proof (take_while1_app (fun c => is_token_char c && negb (c =? 42)) unstarred_char a (c ++ star ++ 61 :: r) unstarred_spec unstarred_ascii Ha (S42 _ eq_refl eq_refl)) as T.
  match goal with |- context [take_while1 ?f ?x] => match type of T with _ = ?y => replace (take_while1 f x) with y by (symmetry; exact T) end end. cbn [bind].
  assert (O : optional (pair_p (tag (bs "*") "TAG ERROR: An indexed MIME parameter name must contain a `*`.") (take_while1 is_digit)) (c ++ star ++ 61 :: r)
    = Ok (star ++ 61 :: r, match c with [] => None | _ :: d => Some (tt, d) end)).
  { unfold optional, pair_p. destruct Hc as [|d Hd _].
    - cbn [app]. unfold star. destruct e.
      + rewrite tag_app. cbn [bind]. destruct (take_while1_err is_digit (61 :: r)) as [x ->]; reflexivity.
      + cbn [app]. rewrite tag_err by reflexivity. reflexivity.
    - rewrite <- app_assoc. rewrite tag_app. cbn [bind]. rewrite (take_while1_app is_digit rfc_DIGIT d (star ++ 61 :: r) digit_spec digit_ascii Hd); [reflexivity|].
      unfold star. now apply star_end. }
  match goal with |- context [optional ?p ?x] => match type of O with _ = ?y => replace (optional p x) with y by (symmetry; exact O) end end. cbn [bind].
  assert (I : match match c with [] => None | _ :: d => Some (tt, d) end with
     | Some (_, index) => let* v := ok_or (parse_below 256 index) (Unknown "Invalid index") in Ok (Some v) | None => Ok None end = Ok i).
  { destruct Hc as [|d Hd Hn]; [reflexivity|]. cbn [bs app]. unfold parse_below. change (bs "*" ++ d) with (42 :: d). cbn [app]. rewrite decimal_number.
    destruct (N.ltb_spec (number d) 256); [reflexivity|lia]. }
  match goal with |- bind ?x _ = _ => match type of I with _ = ?y => replace x with y by (symmetry; exact I) end end. cbn [bind].
  unfold star. destruct e; [|reflexivity]. change (bs "*" ++ 61 :: r) with (42 :: 61 :: r). cbn [N.eqb Pos.eqb].
  change (index_from (42 :: 61 :: r) 1) with (index_from ([42] ++ 61 :: r) (length [42])). rewrite index_from_app. reflexivity.
Qed.
Lemma indexed_name_sound : forall K i, post K (indexed_name i) i
  (fun c x => indexed_param_name c (map fold_case (fst (fst x)), snd (fst x), snd x)).
Proof.
  intros. unfold indexed_name. step (sound_take_while1 K _ unstarred_char i unstarred_spec unstarred_ascii). destruct H as [-> H].
  eapply post_bind.
  { apply post_optional. apply (post_pair_p _ _ K _ _ _ (fun c _ => c = bs "*") (fun c v => v = c /\ chars1 rfc_DIGIT c)).
    - apply post_tag.
    - intros. apply (sound_take_while1 K is_digit rfc_DIGIT j digit_spec digit_ascii). }
  intros ci ri o _ Ho. cbn beta iota.
  eapply post_bind_p with (P := fun ix => rfc_index ci ix).
  { destruct o as [[u ix]|]; [|subst ci; cbn; constructor]. destruct Ho as (c1 & c2 & -> & -> & Hix & Hd). cbn [snd] in Hix. subst ix.
    unfold ok_or. destruct (parse_below 256 c2) as [v|] eqn:Hv; [|exact I]. destruct Hd as [Hd1 Hd2].
    apply parse_below_number in Hv as [-> Hv]; auto. cbn. constructor; auto. split; auto. }
  intros ix Hix.
  eapply post_bind with (P := fun t (e : bool) => t = if e then bs "*" else []).
  { destruct ri as [|y ri]; [apply post_ok; reflexivity|]. destruct (N.eqb_spec y 42) as [->|]; [|apply post_ok; reflexivity].
    cbn. exists [42]. auto. }
  intros t r2 e _ ->. cbn beta iota.
  destruct r2 as [|y r2]; [exact I|]. destruct (N.eqb_spec y 61) as [->|]; [|exact I].
  apply post_ok. rewrite app_nil_r. cbn [fst snd]. now constructor.
Qed.
Lemma indexed_token : forall n v, indexed_param_name n v -> mime_token n.
Proof.
  intros n v [a c i e Ha Hc]. apply name_char_token in Ha as [Ha1 Ha2]. split; [destruct a; [congruence|discriminate]|].
  assert (S : mime_token_char 42) by (split; [lia|cbn; lia]).
  apply Forall_app. split; auto. apply Forall_app. split.
  - destruct Hc as [|d [_ Hd] _]; constructor; auto. eapply Forall_impl; [|exact Hd]. intros x Hx. unfold rfc_DIGIT in Hx. split; [lia|cbn; lia].
  - destruct e; repeat constructor; apply S.
Qed.
Lemma indexed_name_rest : forall i j x, indexed_name i = Ok (j, x) -> exists t, j = 61 :: t.
Proof.
  intros i j x H. unfold indexed_name in H.
  repeat match type of H with
  | bind ?p _ = _ => destruct p as [[? ?]|?|?]; cbn [bind] in H; try discriminate
  | bind ?p _ = _ => destruct p as [?|?|?]; cbn [bind] in H; try discriminate
  end.
  match type of H with match ?r with _ => _ end = _ => destruct r as [|y t]; try discriminate end.
  destruct (N.eqb_spec y 61) as [->|]; [|discriminate]. inversion H. eauto.
Qed.
Lemma token_prefix_eq : forall c a t r, mime_token c -> mime_token a -> c ++ 61 :: t = a ++ 61 :: r -> c = a.
Proof.
  intros c a t r [_ Hc] [_ Ha]. revert a Ha. induction Hc as [|x c Hx Hc IH]; intros [|y a] Ha H; auto.
  - inversion H; subst. inversion Ha; subst. destruct H2 as [_ H2]. exfalso. apply H2. cbn. tauto.
  - inversion H; subst. destruct Hx as [_ Hx]. exfalso. apply Hx. cbn. tauto.
  - inversion H; subst. inversion Ha; subst. f_equal. now apply IH.
Qed.
Lemma param_name_forward : forall n v r, clear_param_name n v -> exists a,
  map fold_case a = fst (fst v) /\ match_parsers [indexed_name; pmap (fun name => (name, None, false)) token] (n ++ 61 :: r) = Ok (61 :: r, (a, snd (fst v), snd v)).
Proof.
  intros n v r [n' v' H|a Ha Hno].
  - destruct (indexed_name_forward n' v' r H) as (a & _ & Ha & Hp). exists a. split; auto. cbn [match_parsers]. rewrite Hp. reflexivity.
  - exists a. split; auto. cbn [match_parsers fst snd].
    assert (X : exists e, indexed_name (a ++ 61 :: r) = Err e).
    { pose proof (indexed_name_sound (fun _ => False) (a ++ 61 :: r)) as S. destruct (indexed_name (a ++ 61 :: r)) as [[j x]|e|k] eqn:Hi; [|eauto|destruct S].
      exfalso. destruct S as (c & Hc & S). apply indexed_name_rest in Hi as [t ->]. symmetry in Hc. apply token_prefix_eq in Hc; [|eapply indexed_token; eauto|auto]. subst c.
      eapply Hno, S. }
    destruct X as [e ->]. cbn [attempt]. unfold pmap. rewrite (token_forward a (61 :: r)) by (auto; reflexivity). reflexivity.
Qed.

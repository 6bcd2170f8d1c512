(* C53: the headers with parameters. *)
From Coq Require Import Lia ZifyBool ZifyNat ZifyN Permutation.
From Verif Require Import Base Utf8 CharSets Combinators Whitespace QuotedString Common Time Address Percent MimeFields Fields
  Rfc5322 Rfc2047 Post CodecSpec RfcFields SoundBase SoundTime TagNoCase ParamProofs SoundFields Steps Complete CompleteFields Forward ForwardText ForwardAddr
  ForwardList ForwardTime ForwardMime ForwardParams ForwardParts ForwardMimeFields LineSpec LinedFacts Writers WriteFacts WriteAddr NeatFacts KeenFacts PercentProofs ExactSpec ExactFacts
  MimeExactSpec MimeExactParts MimeExactBack.
Local Open Scope N_scope.

(* ---- the items are items of RFC 2045 and RFC 2183 ---- *)
Lemma mime_value_rfc : forall q c v, mime_value q c v -> rfc_param_value c v.
Proof. intros q c v []; now constructor. Qed.
Lemma mime_param_rfc : forall rest q c p, mime_param rest q c p -> rfc_param c p.
Proof.
  intros rest q c p [w w' n a i e q' c0 v Hw Hw' Hn Hc]. constructor; auto; [|eapply mime_value_rfc; eauto].
  inversion Hn as [n' v' H|a' Ha Hno]; subst; [|now apply param_name_plain]. inversion H; subst. now constructor.
Qed.
Lemma mime_item_rfc : forall rest q c a, mime_item rest q c a -> rfc_disposition_item c a.
Proof.
  intros rest q c a [w w' n q' c' v Hw Hw' Hn Hc|name mk w w' n c' d Hin Hw Hw' Hn Hc|w w' n a' x e q' c' v Hw Hw' Hn Hc Hno HD].
  - constructor; auto. eapply mime_value_rfc; eauto.
  - unfold dated in Hin. cbn [In] in Hin. destruct Hin as [Hin|[Hin|[Hin|[]]]]; injection Hin as <- <-; now constructor.
  - constructor. eapply (mime_param_rfc []). econstructor; eauto.
Qed.
Lemma items_many : forall A (P : bytes -> bool -> bytes -> A -> Prop) (Q : bytes -> A -> Prop), (forall rest q c a, P rest q c a -> Q c a) ->
  forall rest q cs l, items P rest q cs l -> many_of Q cs l.
Proof.
  intros A P Q H rest q cs l I. induction I as [|q c a Hc|q q' c a cs b l Hc I IH].
  - constructor.
  - rewrite <- (app_nil_r c). constructor; [eapply H; eauto|constructor].
  - constructor; [eapply H; eauto|exact IH].
Qed.

(* ---- no further item ---- *)
Lemma lined_last : forall c, lined c -> forall h, c <> h ++ [13].
Proof.
  intros c Hc. induction Hc as [|c t Hc H IH|w t Hw H IH]; intros h T.
  - destruct h; discriminate.
  - destruct h as [|b h]; injection T as -> T; [unfold rfc_VCHAR, rfc_WSP in Hc; lia|]. eapply IH; eauto.
  - destruct h as [|b [|b' [|b2 h]]]; cbn [app] in T; try discriminate T; [injection T as _ _ -> _; unfold rfc_WSP in Hw; lia|]. injection T as _ _ _ T. eapply IH; eauto.
Qed.
Lemma lined_inside : forall c h i z, lined c -> ends is_wsp i -> (h ++ CRLF) ++ i = c ++ z -> exists z', h = c ++ z' /\ z = z' ++ CRLF ++ i.
Proof.
  intros c h i z Hc Hi E. rewrite <- app_assoc in E. apply app_eq_app in E as (u & [[-> E]|[-> E]]); [exists u; auto|].
  exists []. rewrite app_nil_r. destruct u as [|x [|y u]]; [rewrite app_nil_r; auto| |]; exfalso.
  - injection E as <- E. exact (lined_last _ Hc h eq_refl).
  - cbn in E. injection E as <- <- E. destruct (lined_prefix _ h u Hc eq_refl) as (w & b' & -> & Hw). destruct i as [|k i]; [discriminate|]. injection E as -> _. cbn in Hi. apply wsp_spec in Hw. congruence.
Qed.
Lemma param_stops : forall h i, ends is_wsp i -> (forall q c a z, h ++ CRLF = c ++ z -> ~ mime_param z q c a) -> exists e, parameter ((h ++ CRLF) ++ i) = Err e.
Proof.
  intros h i Hi H. pose proof (sound_parameter never ((h ++ CRLF) ++ i)) as S. destruct (parameter ((h ++ CRLF) ++ i)) as [[r p]|e|k] eqn:P; [|eauto|destruct S]. exfalso.
  apply param_back in P as (q & c & X & Hc & _). assert (L : lined c) by (eapply lined_param, (mime_param_rfc [] q); apply Hc).
  destruct (lined_inside c h i r L Hi X) as (z & -> & ->). apply (H q c p (z ++ CRLF)); [now rewrite <- app_assoc|apply Hc].
Qed.
Lemma item_stops : forall E h i, ends is_wsp i -> (forall q c a z, h ++ CRLF = c ++ z -> ~ mime_item z q c a) -> exists e, disposition_item_parser E ((h ++ CRLF) ++ i) = Err e.
Proof.
  intros E h i Hi H. pose proof (sound_disposition_item E never ((h ++ CRLF) ++ i)) as S. destruct (disposition_item_parser E ((h ++ CRLF) ++ i)) as [[r p]|e|k] eqn:P; [|eauto|destruct S]. exfalso.
  apply item_back in P as (q & c & X & Hc & _). assert (L : lined c) by (eapply lined_item, mime_item_rfc; eauto).
  destruct (lined_inside c h i r L Hi X) as (z & -> & ->). apply (H q c p (z ++ CRLF)); [now rewrite <- app_assoc|]. apply (item_shrink i). now rewrite <- app_assoc.
Qed.
(* and the other way round *)
Lemma token_extends : forall c z, mime_token c -> exists c' z', c ++ z = c' ++ z' /\ mime_token c' /\ ends is_token_char z'.
Proof.
  intros c z. revert c. induction z as [|b z IH]; intros c Hc; [exists c, []; split; [reflexivity|split; [exact Hc|exact I]]|]. destruct (is_token_char b) eqn:B; [|now exists c, (b :: z)].
  destruct (IH (c ++ [b])) as (c' & z' & X & R).
  - destruct Hc as [H1 H2]. split; [destruct c; discriminate|]. apply Forall_app. split; [exact H2|]. constructor; [now apply token_char_spec|constructor].
  - exists c', z'. rewrite <- app_assoc in X. auto.
Qed.
Lemma value_starts : forall q c v z, mime_value q c v -> exists r v', match_parsers [token; quoted_string] (c ++ z) = Ok (r, v').
Proof.
  intros q c v z [c' Hc|c' u [l b y t Hl Hb Ht]]; cbn [match_parsers].
  - destruct (token_extends c' z Hc) as (c2 & z2 & -> & Hc2 & Hz). rewrite (token_forward c2 z2) by auto. cbn [attempt]. eauto.
  - rewrite <- !app_assoc. destruct (quoted_not_token l b ([34] ++ t ++ z) Hl) as [e X].
    match goal with |- context [token ?y] => replace (token y) with (@Err (bytes * bytes) e) by (symmetry; exact X) end. cbn [attempt].
    pose proof (quoted_string_core l b y (t ++ z) Hl Hb) as Q. destruct (skip_total (t ++ z)) as [s S]. rewrite S in Q. cbn [bind] in Q.
    match goal with |- context [quoted_string ?y] => match type of Q with _ = ?a => replace (quoted_string y) with a by (symmetry; exact Q) end end. cbn [attempt]. eauto.
Qed.
Lemma param_stopped : forall j e, parameter j = Err e -> forall q c a z y, j = c ++ z -> ~ mime_param y q c a.
Proof.
  intros j e H q c a z y X0 P. destruct P as [w w' n a' x e' q' c' v Hw Hw' Hn Hc]. subst j. rewrite <- !app_assoc in H. unfold parameter in H.
  rewrite (item_start _ _ (fun i => let* (i, (name, index, encoded)) := match_parsers [indexed_name; pmap (fun name => (name, None, false)) token] i in
     let* (i, _) := tag (bs "=") "TAG ERROR: A MIME parameter name must be followed by a `=`." i in let* (i, value) := match_parsers [token; quoted_string] i in Ok (i, (lowercase name, index, encoded, value)))) in H;
    [|exact Hw|exact Hw'|eapply clear_name_token; eauto].
  destruct (param_name_forward n (a', x, e') (c' ++ z) Hn) as (a2 & _ & X). change (bs "=" ++ c' ++ z) with (61 :: c' ++ z) in H. rewrite X in H. cbn [bind fst snd] in H.
  change (61 :: c' ++ z) with (bs "=" ++ c' ++ z) in H. rewrite tag_app in H. cbn [bind] in H. destruct (value_starts q' c' v z Hc) as (r & v' & V). rewrite V in H. discriminate.
Qed.
Lemma item_stopped : forall E j e, disposition_item_parser E j = Err e -> forall q c a z y, j = c ++ z -> ~ mime_item y q c a.
Proof.
  intros E j e H q c a z y X P. unfold disposition_item_parser in H. cbn [match_parsers] in H. unfold pmap in H.
  destruct (filename_parameter E j) as [[r1 v1]|e1|k1] eqn:F; cbn [bind attempt] in H; [discriminate| |discriminate].
  destruct (date_parameter E (bs "creation-date") (bs "CREATION-DATE") j) as [[r2 v2]|e2|k2] eqn:D1; cbn [bind attempt] in H; [discriminate| |discriminate].
  destruct (date_parameter E (bs "modification-date") (bs "MODIFICATION-DATE") j) as [[r3 v3]|e3|k3] eqn:D2; cbn [bind attempt] in H; [discriminate| |discriminate].
  destruct (date_parameter E (bs "read-date") (bs "READ-DATE") j) as [[r4 v4]|e4|k4] eqn:D3; cbn [bind attempt] in H; [discriminate| |discriminate].
  destruct (parameter j) as [[r5 v5]|e5|k5] eqn:R; cbn [bind attempt] in H; [discriminate| |discriminate]. clear H.
  destruct P as [w w' n q' c' v Hw Hw' Hn Hc|name mk w w' n c' d Hin Hw Hw' Hn Hc|w w' n a' x e' q' c' v Hw Hw' Hn Hc Hno HD].
  - subst j. rewrite <- !app_assoc in F. unfold filename_parameter in F. rewrite item_start in F by (auto; now apply filename_token). rewrite tag_no_case_ok in F by auto. cbn [bind] in F. rewrite tag_app in F. cbn [bind] in F.
    destruct (value_starts q' c' v z Hc) as (r & v' & V). congruence.
  - subst j. unfold dated in Hin. cbn [In] in Hin. destruct Hin as [Hin|[Hin|[Hin|[]]]]; injection Hin as <- <-.
    + rewrite <- !app_assoc in D1. rewrite (date_param_forward E _ _ w w' n c' d z) in D1 by (auto; now apply creation_token). discriminate.
    + rewrite <- !app_assoc in D2. rewrite (date_param_forward E _ _ w w' n c' d z) in D2 by (auto; now apply modification_token). discriminate.
    + rewrite <- !app_assoc in D3. rewrite (date_param_forward E _ _ w w' n c' d z) in D3 by (auto; now apply read_token). discriminate.
  - apply (param_stopped j e5 R q' _ (a', x, e', v) z [] X). now constructor.
Qed.

(* ---- Content-Type ---- *)
Definition ends_crlf_text (r : bytes) : Prop := exists z, CRLF ++ r = z ++ CRLF.
Lemma crlf_text_rest : forall x r, ends_crlf_text r -> exists z, x ++ CRLF ++ r = z ++ CRLF.
Proof. intros x r [z ->]. exists (x ++ z). now rewrite app_assoc. Qed.
Lemma param_head : forall rest q c a, mime_param rest q c a -> exists w y, c = w ++ 59 :: y /\ rfc_oCFWS w.
Proof. intros rest q c a [w w' n a' i e q' c' v Hw]. exists w. eexists. split; [reflexivity|exact Hw]. Qed.
Lemma item_head' : forall rest q c a, mime_item rest q c a -> exists w y, c = w ++ 59 :: y /\ rfc_oCFWS w.
Proof. intros rest q c a H. destruct H as [w w' n q c v Hw|name mk w w' n c d Hin Hw|w w' n a x e q c v Hw]; exists w; (eexists; split; [reflexivity|exact Hw]). Qed.
Lemma type_back : forall E j r v, (forall x, Permutation (hash_order E x) x) -> content_type E j = Ok (r, v) ->
  exists n q t x, j = n ++ [58] ++ t ++ CRLF ++ r /\ same_nocase n (bs "Content-Type") /\ type_value E (CRLF ++ r) q t x v /\
    (fold_start (CRLF ++ r) -> q = true -> blank_end t) /\ exists e, parameter (x ++ CRLF ++ r) = Err e.
Proof.
  intros E j r v Hh H. unfold content_type in H. bound H x. destruct x as [j0 []].
  pose proof (post_tag_no_case E never (bs "Content-Type:") (bs "cONTENT-tYPE:") "TAG NO CASE ERROR: Header name (Content-Type) does not match." j eq_refl) as S. rewrite Heqr0 in S. destruct S as (n0 & -> & Hn). clear Heqr0.
  bound H x. destruct x as [j1 o1]. apply ocfws_back in Heqr0 as (w & -> & Hw). bound H x. destruct x as [j2 t]. pose proof (mime_type_back E never j1) as S. rewrite Heqr0 in S. destruct S as (c & -> & Hc). clear Heqr0.
  bound H x. destruct x as [j3 []]. apply tag_back in Heqr0 as ->. bound H x. destruct x as [j4 s]. pose proof (sound_token never j3) as S. rewrite Heqr0 in S. destruct S as (c' & -> & -> & Hs). clear Heqr0.
  cbv zeta in H. bound H x. destruct x as [j5 raw]. apply many_inv in Heqr0. 2: { intros a b d X. pose proof (sound_parameter never a) as S. rewrite X in S. destruct S as (u & -> & S). apply param_nonempty in S. rewrite app_length. destruct u; [congruence|cbn; lia]. }
  assert (St : exists e, parameter j5 = Err e). { clear - Heqr0. induction Heqr0; eauto. }
  apply (items_back _ _ mime_param) in Heqr0. 2: { intros a b d X. apply param_back in X as (q & u & X1 & X2 & X3). eauto. }
  destruct Heqr0 as (q & ps & -> & Hps & T). bound H l. bound H x. destruct x as [j6 []]. pose proof (sound_inline_cfws never j5) as S. rewrite Heqr1 in S. destruct S as (x & -> & Hx). bound H y. destruct y as [j7 []]. apply tag_back in Heqr2 as ->. injection H as -> <-.
  assert (Hl : params_value (textcode E) raw l). { pose proof (collect_parameters_sound E raw Hh) as S. rewrite Heqr0 in S. apply S. eapply many_param_ok, (items_many _ mime_param); [|exact Hps]. intros. eapply mime_param_rfc; eauto. }
  destruct (name_colon n0 (bs "Content-Type") Hn) as (n & -> & Hn').
  exists n, q, (w ++ c ++ bs "/" ++ c' ++ ps ++ x), x. split; [now rewrite <- !app_assoc|]. split; [exact Hn'|]. split; [rewrite lowercase_fold; econstructor; eauto|]. split; [|exact St].
  intros L Q. destruct (T Q) as (c0 & t' & -> & S). rewrite <- ?app_assoc. do 5 apply blank_app. eapply skip_inline_fold; eauto.
Qed.
Lemma disposition_back : forall E j r v, (forall x, Permutation (hash_order E x) x) -> content_disposition E j = Ok (r, v) ->
  exists n q t x, j = n ++ [58] ++ t ++ CRLF ++ r /\ same_nocase n (bs "Content-Disposition") /\ disposition_value E (CRLF ++ r) q t x v /\
    (fold_start (CRLF ++ r) -> q = true -> blank_end t) /\ exists e, disposition_item_parser E (x ++ CRLF ++ r) = Err e.
Proof.
  intros E j r v Hh H. unfold content_disposition in H. bound H x. destruct x as [j0 []].
  pose proof (post_tag_no_case E never (bs "Content-Disposition:") (bs "cONTENT-dISPOSITION:") "TAG NO CASE ERROR: Header name (Content-Disposition) does not match." j eq_refl) as S. rewrite Heqr0 in S. destruct S as (n0 & -> & Hn). clear Heqr0.
  bound H x. destruct x as [j1 o1]. apply ocfws_back in Heqr0 as (w & -> & Hw). bound H x. destruct x as [j2 t]. pose proof (disposition_kind_back E never j1) as S. rewrite Heqr0 in S. destruct S as (c & -> & Hc). clear Heqr0.
  bound H x. destruct x as [j5 l]. apply many_inv in Heqr0. 2: { intros a b d X. pose proof (sound_disposition_item E never a) as S. rewrite X in S. destruct S as (u & -> & S). apply item_nonempty in S. rewrite app_length. destruct u; [congruence|cbn; lia]. }
  assert (St : exists e, disposition_item_parser E j5 = Err e). { clear - Heqr0. induction Heqr0; eauto. }
  apply (items_back _ _ mime_item) in Heqr0. 2: { intros a b d X. apply item_back in X as (q & u & X1 & X2 & X3). eauto. }
  destruct Heqr0 as (q & ps & -> & Hps & T). bound H ps'. bound H x. destruct x as [j6 []]. pose proof (sound_inline_cfws never j5) as S. rewrite Heqr1 in S. destruct S as (x & -> & Hx). bound H y. destruct y as [j7 []]. apply tag_back in Heqr2 as ->. injection H as -> <-.
  rewrite item_params_of in Heqr0.
  assert (Hl : params_value (textcode E) (params_of l) ps'). { pose proof (collect_parameters_sound E (params_of l) Hh) as S. rewrite Heqr0 in S. apply S. eapply items_params_ok, (items_many _ mime_item); [|exact Hps]. intros. eapply mime_item_rfc; eauto. }
  destruct (name_colon n0 (bs "Content-Disposition") Hn) as (n & -> & Hn').
  exists n, q, (w ++ c ++ ps ++ x), x. split; [now rewrite <- !app_assoc|]. split; [exact Hn'|]. split.
  - rewrite fold_items. cbn [disposition_type disp_filename disp_creation_date disp_modification_date disp_read_date disp_unstructured]. rewrite !opt_id. econstructor; eauto.
  - split; [|exact St]. intros L Q. destruct (T Q) as (c0 & t' & -> & S). rewrite <- ?app_assoc. do 3 apply blank_app. eapply skip_inline_fold; eauto.
Qed.

(* ---- what is written is read ---- *)
Lemma type_core : forall E n q t x k s l r i, (forall y, Permutation (hash_order E y) y) -> debug E = false -> ends is_wsp i -> same_nocase n (bs "Content-Type") ->
  type_value E (CRLF ++ r) q t x (k, s, l) -> ends_crlf_text r ->
  (inline_cfws x -> forall q' u, (q' = q \/ q' = false) -> gap q' u (x ++ CRLF ++ r ++ i) -> (exists e, parameter u = Err e) /\ exists x', inline_cfws x' /\ u = x' ++ CRLF ++ r ++ i) ->
  exists l', content_type E (n ++ [58] ++ t ++ CRLF ++ r ++ i) = Ok (r ++ i, (k, s, l')) /\ forall a, map_get l a = map_get l' a.
Proof.
  intros E n q t x k s l r i Hh Hd Hi Hn H Hr Hstop. inversion H as [w c t' s' ps raw l0 x0 q0 Hw Hk Hs Hps Hv Hx E1 E2]; subst; clear H.
  assert (Hraw : Forall param_ok raw). { eapply many_param_ok, (items_many _ mime_param); [|exact Hps]. intros. eapply mime_param_rfc; eauto. }
  destruct (collect_parameters_forward E raw Hh Hraw) as (l' & Hcp & Hv'); [intros a; unfold no_overflow; now left|eapply params_value_defined; eauto|].
  exists l'. split; [|eapply params_value_fun; eauto].
  unfold content_type. rewrite <- !app_assoc. use_name "Content-Type"%string Hn.
  destruct (ocfws_token w c (bs "/" ++ s' ++ ps ++ x ++ CRLF ++ r ++ i) Hw) as [o ->]; [eapply mime_type_token; eauto|]. cbn [bind].
  rewrite (mime_type_forward E c k) by (auto; reflexivity). cbn [bind]. rewrite tag_app. cbn [bind].
  assert (He : ends is_token_char ((x ++ CRLF ++ r) ++ i)) by (rewrite <- !app_assoc; now apply inline_token_end).
  assert (He' : ends is_token_char (ps ++ x ++ CRLF ++ r ++ i)).
  { pose proof (items_token_end _ mime_param i param_head _ _ _ _ Hps He) as X. now rewrite <- !app_assoc in X. }
  rewrite (token_forward s') by auto. cbn [bind].
  destruct (items_read _ parameter mime_param i (fun rest q c a H Hr Hz => param_reads i rest q c a H Hr) param_head _ _ _ _ Hps He (crlf_text_rest x r Hr) false (ps ++ x ++ CRLF ++ r ++ i)) as (u & q' & G & Q1 & Q2 & St).
  { cbn. now rewrite <- !app_assoc. }
  rewrite <- !app_assoc in G. destruct (Hstop Hx q' u) as ((e & P) & x' & Hx' & ->); [destruct raw; [right; auto|left; apply Q1; discriminate]|exact G|].
  rewrite (many_steps _ _ _ _ _ (St e P)). cbn [bind]. rewrite Hcp. cbn [bind]. rewrite (inline_forward x') by auto. cbn [bind]. rewrite tag_app. cbn [bind]. now rewrite lowercase_fold.
Qed.
Lemma stop_end : forall A (p : parser A) q r i x, (forall x i, inline_cfws x -> ends is_wsp i -> exists e, p (x ++ CRLF ++ i) = Err e) -> ends is_wsp i ->
  (r = [] \/ (q = false /\ exists e, p (x ++ CRLF ++ r ++ i) = Err e)) ->
  inline_cfws x -> forall q' u, (q' = q \/ q' = false) -> gap q' u (x ++ CRLF ++ r ++ i) -> (exists e, p u = Err e) /\ exists x', inline_cfws x' /\ u = x' ++ CRLF ++ r ++ i.
Proof.
  intros A p q r i x Hp Hi H Hx q' u Hq G. destruct H as [->|[-> He]].
  - cbn [app] in *. destruct (gap_end q' u x i G Hx Hi) as (x' & Hx' & ->). split; [now apply Hp|eauto].
  - assert (q' = false) as -> by (now destruct Hq). cbn in G. subst u. split; [exact He|eauto].
Qed.
Lemma type_forward : forall E n q t x k s l i, (forall y, Permutation (hash_order E y) y) -> debug E = false -> ends is_wsp i -> same_nocase n (bs "Content-Type") ->
  type_value E CRLF q t x (k, s, l) -> exists l', content_type E ((n ++ [58] ++ t ++ CRLF) ++ i) = Ok (i, (k, s, l')) /\ forall a, map_get l a = map_get l' a.
Proof.
  intros E n q t x k s l i Hh Hd Hi Hn H. rewrite <- !app_assoc. apply (type_core E n q t x k s l [] i Hh Hd Hi Hn); [exact H|now exists []|].
  apply (stop_end _ parameter q [] i x); [apply parameter_none|exact Hi|now left].
Qed.
Lemma type_cut : forall E n t x k s l r i, (forall y, Permutation (hash_order E y) y) -> debug E = false -> ends is_wsp i -> same_nocase n (bs "Content-Type") ->
  type_value E (CRLF ++ r) false t x (k, s, l) -> ends_crlf_text r -> (forall q c a z, x ++ CRLF ++ r = c ++ z -> ~ mime_param z q c a) ->
  exists l', content_type E ((n ++ [58] ++ t ++ CRLF) ++ r ++ i) = Ok (r ++ i, (k, s, l')) /\ forall a, map_get l a = map_get l' a.
Proof.
  intros E n t x k s l r i Hh Hd Hi Hn H Hr Hno. rewrite <- !app_assoc. apply (type_core E n false t x k s l r i Hh Hd Hi Hn H Hr).
  apply (stop_end _ parameter false r i x); [apply parameter_none|exact Hi|right]. split; [reflexivity|]. destruct (crlf_text_rest x r Hr) as [z Hz]. rewrite Hz in Hno.
  destruct (param_stops z i Hi Hno) as [e X]. exists e. rewrite <- Hz, <- !app_assoc in X. exact X.
Qed.
Lemma disposition_core : forall E n q t x d r i, (forall y, Permutation (hash_order E y) y) -> debug E = false -> ends is_wsp i -> same_nocase n (bs "Content-Disposition") ->
  disposition_value E (CRLF ++ r) q t x d -> ends_crlf_text r ->
  (inline_cfws x -> forall q' u, (q' = q \/ q' = false) -> gap q' u (x ++ CRLF ++ r ++ i) -> (exists e, disposition_item_parser E u = Err e) /\ exists x', inline_cfws x' /\ u = x' ++ CRLF ++ r ++ i) ->
  exists d', content_disposition E (n ++ [58] ++ t ++ CRLF ++ r ++ i) = Ok (r ++ i, d') /\ same_field (FContentDisposition d) (FContentDisposition d').
Proof.
  intros E n q t x d r i Hh Hd Hi Hn H Hr Hstop. destruct H as [w c k ps l rr x q Hw Hk Hps Hv Hx].
  assert (Hraw : Forall param_ok (params_of l)). { eapply items_params_ok, (items_many _ mime_item); [|exact Hps]. intros. eapply mime_item_rfc; eauto. }
  destruct (collect_parameters_forward E (params_of l) Hh Hraw) as (l' & Hcp & Hv'); [intros a; unfold no_overflow; now left|eapply params_value_defined; eauto|].
  eexists. split; [|apply same_disposition; eapply params_value_fun; [exact Hraw|exact Hv|exact Hv']].
  unfold content_disposition. rewrite <- !app_assoc. use_name "Content-Disposition"%string Hn.
  destruct (ocfws_token w c (ps ++ x ++ CRLF ++ r ++ i) Hw) as [o ->]; [eapply disposition_token; eauto|]. cbn [bind].
  assert (He : ends is_token_char ((x ++ CRLF ++ r) ++ i)) by (rewrite <- !app_assoc; now apply inline_token_end).
  assert (He' : ends is_token_char (ps ++ x ++ CRLF ++ r ++ i)).
  { pose proof (items_token_end _ mime_item i item_head' _ _ _ _ Hps He) as X. now rewrite <- !app_assoc in X. }
  rewrite (disposition_kind_forward E c k) by auto. cbn [bind].
  destruct (items_read _ (disposition_item_parser E) mime_item i (fun rest q c a H Hr Hz => item_reads E i rest q c a Hi H Hr Hz) item_head' _ _ _ _ Hps He (crlf_text_rest x r Hr) false (ps ++ x ++ CRLF ++ r ++ i)) as (u & q' & G & Q1 & Q2 & St).
  { cbn. now rewrite <- !app_assoc. }
  rewrite <- !app_assoc in G. destruct (Hstop Hx q' u) as ((e & P) & x' & Hx' & ->); [destruct l; [right; auto|left; apply Q1; discriminate]|exact G|].
  rewrite (many_steps _ _ _ _ _ (St e P)). cbn [bind]. rewrite item_params_of. rewrite Hcp. cbn [bind]. rewrite (inline_forward x') by auto. cbn [bind]. rewrite tag_app. cbn [bind].
  do 2 f_equal. rewrite fold_items. cbn. rewrite !opt_id. reflexivity.
Qed.
Lemma disposition_forward' : forall E n q t x d i, (forall y, Permutation (hash_order E y) y) -> debug E = false -> ends is_wsp i -> same_nocase n (bs "Content-Disposition") ->
  disposition_value E CRLF q t x d -> exists d', content_disposition E ((n ++ [58] ++ t ++ CRLF) ++ i) = Ok (i, d') /\ same_field (FContentDisposition d) (FContentDisposition d').
Proof.
  intros E n q t x d i Hh Hd Hi Hn H. rewrite <- !app_assoc. apply (disposition_core E n q t x d [] i Hh Hd Hi Hn); [exact H|now exists []|].
  apply (stop_end _ (disposition_item_parser E) q [] i x); [apply item_none|exact Hi|now left].
Qed.
Lemma disposition_cut : forall E n t x d r i, (forall y, Permutation (hash_order E y) y) -> debug E = false -> ends is_wsp i -> same_nocase n (bs "Content-Disposition") ->
  disposition_value E (CRLF ++ r) false t x d -> ends_crlf_text r -> (forall q c a z, x ++ CRLF ++ r = c ++ z -> ~ mime_item z q c a) ->
  exists d', content_disposition E ((n ++ [58] ++ t ++ CRLF) ++ r ++ i) = Ok (r ++ i, d') /\ same_field (FContentDisposition d) (FContentDisposition d').
Proof.
  intros E n t x d r i Hh Hd Hi Hn H Hr Hno. rewrite <- !app_assoc. apply (disposition_core E n false t x d r i Hh Hd Hi Hn H Hr).
  apply (stop_end _ (disposition_item_parser E) false r i x); [apply item_none|exact Hi|right]. split; [reflexivity|]. destruct (crlf_text_rest x r Hr) as [z Hz]. rewrite Hz in Hno.
  destruct (item_stops E z i Hi Hno) as [e X]. exists e. rewrite <- Hz, <- !app_assoc in X. exact X.
Qed.
(* the shrunk values *)
Lemma type_shrink : forall E rest i q t x v, type_value E (rest ++ i) q t x v -> type_value E rest q t x v.
Proof. intros E rest i q t x v [w c k s ps raw l x0 q0 Hw Hk Hs Hps Hv Hx]. econstructor; eauto. apply (items_shrink _ mime_param i (param_shrink i)). now rewrite <- app_assoc. Qed.
Lemma disposition_shrink : forall E rest i q t x v, disposition_value E (rest ++ i) q t x v -> disposition_value E rest q t x v.
Proof. intros E rest i q t x v [w c k ps l r x0 q0 Hw Hk Hps Hv Hx]. econstructor; eauto. apply (items_shrink _ mime_item i (item_shrink i)). now rewrite <- app_assoc. Qed.

(* C53: what has been read is a text of the grammar. *)
From Coq Require Import Lia ZifyBool ZifyNat ZifyN Permutation.
From Verif Require Import Base Utf8 CharSets Combinators Whitespace QuotedString Common Time Address Percent MimeFields Fields
  Rfc5322 Rfc2047 Post CodecSpec RfcFields SoundBase SoundTime TagNoCase ParamProofs SoundFields Steps Complete CompleteFields Forward ForwardText ForwardAddr
  ForwardList ForwardTime ForwardMime ForwardParams ForwardParts ForwardMimeFields LineSpec LinedFacts Writers WriteFacts WriteAddr NeatFacts KeenFacts PercentProofs ExactSpec ExactFacts MimeExactSpec MimeExactParts.
Local Open Scope N_scope.

(* ---- where skipping white space stops ---- *)
Lemma fws_blanks : forall f v w, rfc_FWS f v -> chars rfc_WSP w -> exists v', rfc_FWS (f ++ w) v'.
Proof.
  intros f v w [u [U1 U]|a b A [B1 B2]] Hw.
  - eexists. constructor. split; [destruct u; [congruence|discriminate]|now apply Forall_app].
  - eexists. rewrite <- !app_assoc. constructor; [exact A|]. split; [destruct b; [congruence|discriminate]|now apply Forall_app].
Qed.
Lemma comment_stop : forall c y, rfc_comment c -> ends is_wsp (c ++ y) /\ no_crlf (c ++ y).
Proof. intros c y H. apply comment_head in H as [b ->]. split; [reflexivity|]. now apply no_crlf_head. Qed.
Lemma ofws_comment : forall s r o w c y e, optional fws s = Ok (r, o) -> r = w ++ c ++ y -> chars rfc_WSP w -> rfc_comment c -> fws_comment s <> Err e.
Proof.
  intros s r o w c y e H -> Hw Hc X. destruct (comment_stop c y Hc) as [S1 S2]. unfold fws_comment in X. rewrite H in X. cbn [bind] in X.
  assert (w = []) as ->.
  { unfold optional in H. pose proof (sound_fws never s) as S. destruct (fws s) as [[r v]|e'|k] eqn:F; cbn [attempt] in H; try discriminate.
    - injection H as -> <-. destruct S as (f & -> & Hf). destruct (fws_blanks f v w Hf Hw) as [v' Hf']. pose proof (fws_forward (f ++ w) v' (c ++ y) Hf' S1 (or_introl S2)) as G. rewrite <- app_assoc in G. rewrite F in G. injection G as G _.
      assert (L : length (w ++ c ++ y) = length (c ++ y)) by now rewrite G. rewrite app_length in L. destruct w; [reflexivity|cbn in L; lia].
    - injection H as -> <-. destruct w as [|b w]; [reflexivity|]. pose proof (fws_forward (b :: w) (b :: w) (c ++ y)) as G. rewrite F in G. discriminate G; [|exact S1|now left]. constructor. split; [discriminate|exact Hw]. }
  cbn [app] in X. rewrite (comment_complete c) in X by auto. discriminate.
Qed.
Lemma skip_no_comment : forall z w c y, skip_cfws z = Ok (w ++ c ++ y) -> chars rfc_WSP w -> rfc_comment c -> False.
Proof.
  intros z w c y H Hw Hc. unfold skip_cfws, cfws in H. cbn [match_parsers] in H.
  assert (O : forall s, exists r o, optional fws s = Ok (r, o)). { intros s. unfold optional. pose proof (sound_fws never s) as S. destruct (fws s) as [[r v]|e|k]; cbn [attempt]; eauto. destruct S. }
  unfold real_cfws in H. destruct (fws_comment z) as [[z1 u]|e|k] eqn:F; cbn [map_err bind attempt] in H; [|  |discriminate].
  - destruct (many fws_comment z1) as [[z2 l]|e|k] eqn:M; cbn [bind attempt] in H; [|now apply many_not_err in M|discriminate].
    destruct (optional fws z2) as [[r o]|e|k] eqn:Q; cbn [bind attempt] in H; [|destruct (O z2) as (? & ? & Y); congruence|discriminate]. injection H as ->.
      assert (N : exists e, fws_comment z2 = Err e).
      { apply many_inv in M; [|]. 2: { intros j r a X. pose proof (sound_fws_comment never j) as S. rewrite X in S. destruct S as (d & -> & S). apply fws_then_comment_nonempty in S. rewrite app_length. destruct d; [congruence|cbn; lia]. }
        clear - M. induction M; eauto. }
      destruct N as [e N]. exact (ofws_comment z2 _ o w c y e Q eq_refl Hw Hc N).
  - unfold optional in O. destruct (fws z) as [[r v]|e'|k] eqn:G; cbn [attempt] in H.
    + injection H as ->. apply (ofws_comment z (w ++ c ++ y) (Some v) w c y e); auto. unfold optional. rewrite G. reflexivity.
    + injection H as ->. apply (ofws_comment (w ++ c ++ y) (w ++ c ++ y) None w c y e); auto. unfold optional. rewrite G. reflexivity.
    + discriminate.
Qed.
Lemma ofws_fold : forall s x f o, optional fws s = Ok (x ++ f, o) -> chars rfc_WSP x -> fold_start f -> exists g, s = g ++ x ++ f /\ blank_end (g ++ x).
Proof.
  intros s x f o H Hx Hf. unfold optional in H. pose proof (sound_fws never s) as S. destruct (fws s) as [[r v]|e|k] eqn:F; cbn [attempt] in H; [| |discriminate].
  - injection H as -> <-. destruct S as (g & -> & Hg). exists g. split; [reflexivity|]. destruct Hg as [w [Hn Hw]|w1 w2 H1 [H2 H3]].
    + exfalso. destruct (fws_takes_fold (w ++ x) f ltac:(now apply Forall_app) Hf) as (r' & v' & X & Y). rewrite <- app_assoc in X. rewrite F in X. injection X as <- _. rewrite app_length in Y. lia.
    + exists w1, (w2 ++ x). split; [now rewrite <- !app_assoc|]. split; [destruct w2; [congruence|discriminate]|now apply Forall_app].
  - injection H as -> <-. exfalso. destruct (fws_takes_fold x f Hx Hf) as (r' & v' & X & _). congruence.
Qed.
Lemma skip_fold : forall z x f, skip_cfws z = Ok (x ++ f) -> chars rfc_WSP x -> fold_start f -> exists g, z = g ++ x ++ f /\ blank_end (g ++ x).
Proof.
  intros z x f H Hx Hf. unfold skip_cfws, cfws in H. cbn [match_parsers] in H. unfold real_cfws in H. pose proof (sound_fws_comment never z) as S.
  destruct (fws_comment z) as [[z1 u]|e|k] eqn:F; cbn [map_err bind attempt] in H; [| |discriminate].
  - destruct S as (c & -> & _). pose proof (post_many _ never fws_comment (fun c _ => fws_then_comment c) z1 (fun c _ H => fws_then_comment_nonempty c H) (sound_fws_comment never)) as S.
    destruct (many fws_comment z1) as [[z2 l]|e|k] eqn:M; cbn [bind attempt] in H; [|now apply many_not_err in M|discriminate]. destruct S as (c' & -> & _).
    pose proof (sound_ofws never z2) as S. destruct (optional fws z2) as [[r o]|e|k] eqn:Q; cbn [bind attempt] in H; [|unfold optional in Q; destruct (fws z2) as [[? ?]|?|?]; discriminate|discriminate]. injection H as ->.
    destruct (ofws_fold _ _ _ _ Q Hx Hf) as (g & -> & B). exists (c ++ c' ++ g). split; [now rewrite <- !app_assoc|]. rewrite <- !app_assoc. now apply blank_app, blank_app.
  - assert (Q : exists o, optional fws z = Ok (x ++ f, o)). { unfold optional. destruct (fws z) as [[r v]|e'|k] eqn:G; cbn [attempt] in H |- *; [injection H as ->; eauto|injection H as ->; eauto|discriminate]. }
    destruct Q as [o Q]. eapply ofws_fold; eauto.
Qed.
Lemma skip_inline_fold : forall t x f, skip_cfws (t ++ x ++ f) = Ok (x ++ f) -> inline_cfws x -> fold_start f -> blank_end (t ++ x).
Proof.
  intros t x f H Hx Hf. destruct Hx as [w w' Hw Hw'|w c w' Hw Hc Hw'].
  - destruct (skip_fold _ _ _ H ltac:(now apply Forall_app) Hf) as (g & G & B). apply app_inv_tail in G as ->. exact B.
  - exfalso. rewrite <- !app_assoc in H. exact (skip_no_comment _ w c _ H Hw Hc).
Qed.

(* ---- parameters ---- *)
Definition takes (q : bool) (c r : bytes) : Prop := q = true -> exists c0 t, c = c0 ++ t /\ skip_cfws (t ++ r) = Ok r.
Lemma takes_app : forall q a c r, takes q c r -> takes q (a ++ c) r.
Proof. intros q a c r H Q. destruct (H Q) as (c0 & t & -> & S). exists (a ++ c0), t. split; [now rewrite app_assoc|exact S]. Qed.
Lemma value_back : forall j r v, match_parsers [token; quoted_string] j = Ok (r, v) -> exists q c, j = c ++ r /\ mime_value q c v /\ takes q c r.
Proof.
  intros j r v H. cbn [match_parsers] in H. pose proof (sound_token never j) as S. destruct (token j) as [[r' v']|e|k]; cbn [attempt] in H; [| |discriminate].
  - injection H as -> ->. destruct S as (c & -> & -> & Hc). exists false, c. split; [reflexivity|]. split; [now constructor|discriminate].
  - pose proof (sound_quoted_string never j) as S'. destruct (quoted_string j) as [[r' v']|e'|k] eqn:Q; cbn [attempt] in H; [|discriminate|discriminate]. injection H as -> ->.
    destruct S' as (c & -> & Hc). exists true, c. split; [reflexivity|]. split; [now constructor|]. intros _. destruct Hc as [l b v t Hl Hb Ht].
    exists (l ++ [34] ++ b ++ [34]), t. split; [now rewrite <- !app_assoc|]. rewrite <- !app_assoc in Q. pose proof (quoted_string_core l b v (t ++ r) Hl Hb) as X. rewrite X in Q.
    destruct (skip_cfws (t ++ r)) as [z|e1|k1]; cbn [bind] in Q; [|discriminate|discriminate]. now injection Q as ->.
Qed.
Lemma ocfws_back : forall j r o, optional cfws j = Ok (r, o) -> exists w, j = w ++ r /\ rfc_oCFWS w.
Proof. intros j r o H. pose proof (sound_ocfws never j) as S. rewrite H in S. destruct S as (c & -> & S). eauto. Qed.
Lemma param_name_back : forall j r a i e, match_parsers [indexed_name; pmap (fun name => (name, None, false)) token] j = Ok (r, (a, i, e)) -> (exists z, r = 61 :: z) ->
  exists n, j = n ++ r /\ clear_param_name n (map fold_case a, i, e).
Proof.
  intros j r a i e H [z ->]. cbn [match_parsers] in H. pose proof (indexed_name_sound never j) as S. destruct (indexed_name j) as [[r' v']|e'|k] eqn:N; cbn [attempt] in H; [| |discriminate].
  - injection H as -> ->. destruct S as (c & -> & Hc). exists c. split; [reflexivity|]. now constructor.
  - unfold pmap in H. pose proof (sound_token never j) as S'. destruct (token j) as [[r' v']|e1|k1]; cbn [attempt bind] in H; [|discriminate|discriminate]. injection H as -> -> <- <-.
    destruct S' as (c & -> & -> & Hc). exists c. split; [reflexivity|]. apply clear_unindexed; [exact Hc|]. intros v V. destruct (indexed_name_forward c v z V) as (a' & _ & _ & X). congruence.
Qed.
Lemma tag_back : forall e m j r u, tag e m j = Ok (r, u) -> j = e ++ r.
Proof. intros e m j r u H. destruct (tag_inv e m j) as [(r' & -> & X)|[_ X]]; rewrite X in H; [now injection H as -> _|discriminate]. Qed.
Ltac bound H x := match type of H with bind ?t _ = _ => destruct t as [x|?|?] eqn:?; cbn [bind] in H; [|discriminate H|discriminate H] end.
Lemma param_parts : forall j r p, parameter j = Ok (r, p) -> exists w w' n a i e q c v, j = w ++ bs ";" ++ w' ++ n ++ bs "=" ++ c ++ r /\ p = (a, i, e, v) /\
  rfc_oCFWS w /\ rfc_oCFWS w' /\ clear_param_name n (a, i, e) /\ mime_value q c v /\ takes q c r /\ match_parsers [token; quoted_string] (c ++ r) = Ok (r, v).
Proof.
  intros j r p H. unfold parameter in H. bound H x. destruct x as [j1 o1]. apply ocfws_back in Heqr0 as (w & -> & Hw). bound H x. destruct x as [j2 []]. apply tag_back in Heqr0 as ->.
  bound H x. destruct x as [j3 o3]. apply ocfws_back in Heqr0 as (w' & -> & Hw'). bound H x. destruct x as [j4 [[a i] e]]. bound H x. destruct x as [j5 []]. apply tag_back in Heqr1 as ->.
  apply param_name_back in Heqr0 as (n & -> & Hn); [|now exists j5]. bound H x. destruct x as [j6 v]. pose proof Heqr0 as V. apply value_back in Heqr0 as (q & c & -> & Hc & T). injection H as -> <-.
  rewrite <- lowercase_fold in Hn. exists w, w', n, (lowercase a), i, e, q, c, v. repeat (split; [solve [auto]|]). exact V.
Qed.
Lemma param_back : forall j r p, parameter j = Ok (r, p) -> exists q c, j = c ++ r /\ (forall rest, mime_param rest q c p) /\ takes q c r.
Proof.
  intros j r p H. apply param_parts in H as (w & w' & n & a & i & e & q & c & v & -> & -> & Hw & Hw' & Hn & Hc & T & _).
  exists q, (w ++ bs ";" ++ w' ++ n ++ bs "=" ++ c). split; [now rewrite <- !app_assoc|]. split; [|now repeat apply takes_app]. intros rest. now constructor.
Qed.
Lemma date_back : forall E e1 e2 j r d, nocase_pair e1 e2 = true -> date_parameter E e1 e2 j = Ok (r, d) ->
  exists w w' n t, j = (w ++ bs ";" ++ w' ++ n ++ bs "=" ++ [34] ++ t ++ [34]) ++ r /\ rfc_oCFWS w /\ rfc_oCFWS w' /\ same_nocase n e1 /\ rfc_date_value t d.
Proof. intros E e1 e2 j r d Hp H. pose proof (sound_date_parameter E never e1 e2 j Hp) as S. rewrite H in S. destruct S as (c & -> & w & w' & n & t & -> & S). exists w, w', n, t. split; [reflexivity|exact S]. Qed.
Lemma item_back : forall E j r a, disposition_item_parser E j = Ok (r, a) -> exists q c, j = c ++ r /\ mime_item r q c a /\ takes q c r.
Proof.
  intros E j r a H. unfold disposition_item_parser in H. cbn [match_parsers] in H. unfold pmap in H.
  destruct (filename_parameter E j) as [[r1 v1]|e1|k1] eqn:F; cbn [bind attempt] in H; [| |discriminate].
  { injection H as -> <-. unfold filename_parameter in F. bound F x. destruct x as [j1 o1]. apply ocfws_back in Heqr0 as (w & -> & Hw). bound F x. destruct x as [j2 []]. apply tag_back in Heqr0 as ->.
    bound F x. destruct x as [j3 o3]. apply ocfws_back in Heqr0 as (w' & -> & Hw'). bound F x. destruct x as [j4 []]. bound F x. destruct x as [j5 []]. apply tag_back in Heqr1 as ->.
    apply value_back in F as (q & c & -> & Hc & T). pose proof (post_tag_no_case E never (bs "filename") (bs "FILENAME") "TAG NO CASE ERROR: In a Content-Disposition header, the name of the parameter does not match a filename parameter." j3 eq_refl) as S.
    rewrite Heqr0 in S. destruct S as (n & -> & Hn).
    exists q, (w ++ bs ";" ++ w' ++ n ++ bs "=" ++ c). split; [now rewrite <- !app_assoc|]. split; [now constructor|now repeat apply takes_app]. }
  destruct (date_parameter E (bs "creation-date") (bs "CREATION-DATE") j) as [[r2 v2]|e2|k2] eqn:D1; cbn [bind attempt] in H; [| |discriminate].
  { injection H as -> <-. apply date_back in D1 as (w & w' & n & t & -> & Hw & Hw' & Hn & Ht); [|reflexivity]. exists false. eexists. split; [reflexivity|]. split; [|discriminate]. eapply (mime_dated r "creation-date" DCreation); eauto. cbn; tauto. }
  destruct (date_parameter E (bs "modification-date") (bs "MODIFICATION-DATE") j) as [[r3 v3]|e3|k3] eqn:D2; cbn [bind attempt] in H; [| |discriminate].
  { injection H as -> <-. apply date_back in D2 as (w & w' & n & t & -> & Hw & Hw' & Hn & Ht); [|reflexivity]. exists false. eexists. split; [reflexivity|]. split; [|discriminate]. eapply (mime_dated r "modification-date" DModification); eauto. cbn; tauto. }
  destruct (date_parameter E (bs "read-date") (bs "READ-DATE") j) as [[r4 v4]|e4|k4] eqn:D3; cbn [bind attempt] in H; [| |discriminate].
  { injection H as -> <-. apply date_back in D3 as (w & w' & n & t & -> & Hw & Hw' & Hn & Ht); [|reflexivity]. exists false. eexists. split; [reflexivity|]. split; [|discriminate]. eapply (mime_dated r "read-date" DRead); eauto. cbn; tauto. }
  destruct (parameter j) as [[r5 v5]|e5|k5] eqn:P; cbn [bind attempt] in H; [|discriminate|discriminate]. injection H as -> <-.
  apply param_parts in P as (w & w' & n & a & i & e & q & c & v & -> & -> & Hw & Hw' & Hn & Hc & T & V).
  exists q, (w ++ bs ";" ++ w' ++ n ++ bs "=" ++ c). split; [now rewrite <- !app_assoc|]. split; [|now repeat apply takes_app].
  assert (Tn : mime_token n) by (eapply clear_name_token; eauto). constructor; auto.
  - intros N. unfold filename_parameter in F. rewrite item_start in F by auto. rewrite tag_no_case_ok in F by auto. cbn [bind] in F. rewrite tag_app in F. cbn [bind] in F. congruence.
  - intros name mk t d z Hin N Ht X. rewrite X in *. unfold dated in Hin. cbn [In] in Hin. destruct Hin as [Hin|[Hin|[Hin|[]]]]; injection Hin as <- <-.
    + rewrite (date_param_forward E (bs "creation-date") (bs "CREATION-DATE") w w' n t d z) in D1 by auto. discriminate.
    + rewrite (date_param_forward E (bs "modification-date") (bs "MODIFICATION-DATE") w w' n t d z) in D2 by auto. discriminate.
    + rewrite (date_param_forward E (bs "read-date") (bs "READ-DATE") w w' n t d z) in D3 by auto. discriminate.
Qed.

(* ---- lists of items ---- *)
Lemma items_back : forall A (p : parser A) (P : bytes -> bool -> bytes -> A -> Prop), (forall j r a, p j = Ok (r, a) -> exists q c, j = c ++ r /\ P r q c a /\ takes q c r) ->
  forall j l r, steps p j l r -> exists q cs, j = cs ++ r /\ items P r q cs l /\ takes q cs r.
Proof.
  intros A p P HP j l r H. induction H as [i e H|i j x l k Hx Hlen Hl IH0]; [|destruct IH0 as (q & cs & -> & IH & T)].
  - exists false, []. split; [reflexivity|]. split; [constructor|discriminate].
  - destruct (HP _ _ _ Hx) as (q1 & c & -> & Hc & T1). inversion IH; subst.
    + exists q1, c. split; [reflexivity|]. split; [now constructor|exact T1].
    + exists q, (c ++ cs). split; [now rewrite <- app_assoc|]. split; [|now apply takes_app]. eapply items_more; [exact Hc|exact IH].
    + exists q, (c ++ (c0 ++ cs0)). split; [now rewrite <- !app_assoc|]. split; [|now apply takes_app]. eapply items_more; [exact Hc|exact IH].
Qed.
Lemma items_shrink : forall A (P : bytes -> bool -> bytes -> A -> Prop) i, (forall rest q c a, P (rest ++ i) q c a -> P rest q c a) ->
  forall rest q cs l, items P (rest ++ i) q cs l -> items P rest q cs l.
Proof.
  intros A P i HP rest q cs l H. remember (rest ++ i) as r eqn:R. revert R. induction H as [|q c a Hc|q q' c a cs b l Hc H IH]; intros ->.
  - constructor.
  - constructor. now apply HP.
  - eapply items_more; [|now apply IH]. apply HP. rewrite <- app_assoc. exact Hc.
Qed.
Lemma param_shrink : forall i rest q c a, mime_param (rest ++ i) q c a -> mime_param rest q c a.
Proof. intros i rest q c a []. now constructor. Qed.
Lemma item_shrink : forall i rest q c a, mime_item (rest ++ i) q c a -> mime_item rest q c a.
Proof.
  intros i rest q c a [w w' n q' c' v Hw Hw' Hn Hc|name mk w w' n c' d Hin Hw Hw' Hn Hc|w w' n a' x e q' c' v Hw Hw' Hn Hc Hno HD].
  - now constructor.
  - eapply mime_dated; eauto.
  - constructor; auto. intros name mk t d z Hin N Ht X. apply (HD name mk t d (z ++ i) Hin N Ht). rewrite app_assoc, X. now rewrite <- !app_assoc.
Qed.

(* ---- keywords ---- *)
Lemma keyword_ind_back : forall A E K (l : list (bytes * bytes * string * A)) (other : bytes -> A) table i,
  Forall (fun '(e1, e2, msg, a) => nocase_pair e1 e2 = true /\ In (e1, a) table) l ->
  (forall n a, In (n, a) table -> (exists e2 msg, In (n, e2, msg, a) l) \/ starts_nocase i n = false) ->
  post K (match_parsers (keyword_parsers E l ++ [pmap (fun name => other (lowercase name)) token]) i) i (clear_keyword table other).
Proof.
  intros A E K l other table i H. induction H as [|[[[e1 e2] msg] a] l [H1 H2] Hl IH]; intros Ht.
  - cbn [keyword_parsers map app]. apply post_Forall_match. apply Forall_cons; [|apply Forall_nil]. apply post_pmap.
    pose proof (sound_token K i) as T. destruct (token i) as [[r v]|e|k]; cbn [post] in *; auto. destruct T as (c & -> & -> & Hc).
    exists c. split; auto. rewrite lowercase_fold. apply clear_other; auto. intros n a x y Hn -> Hs.
    destruct (Ht n a Hn) as [(? & ? & [])|Hf]. rewrite <- app_assoc in Hf. rewrite (starts_nocase_app x (y ++ r) n Hs) in Hf. discriminate.
  - cbn [keyword_parsers map app match_parsers]. unfold pmap at 1. destruct (starts_nocase i e1) eqn:S.
    + apply starts_nocase_spec in S as (n & r & -> & S). rewrite (tag_no_case_ok E e1 e2 msg n r) by auto. cbn [bind attempt].
      exists n. split; auto. eapply clear_known; eauto.
    + destruct (tag_no_case_err E e1 e2 msg i H1 S) as [e ->]. cbn [bind attempt]. apply IH. intros n b Hn.
      destruct (Ht n b Hn) as [(x2 & mx & [Hx|Hx])|Hf]; eauto. inversion Hx; subst. auto.
Qed.
Lemma keyword_back : forall A E K (l : list (bytes * bytes * string * A)) (other : bytes -> A) table i,
  Forall (fun '(e1, e2, msg, a) => nocase_pair e1 e2 = true /\ In (e1, a) table) l ->
  (forall n a, In (n, a) table -> exists e2 msg, In (n, e2, msg, a) l) ->
  post K (match_parsers (keyword_parsers E l ++ [pmap (fun name => other (lowercase name)) token]) i) i (clear_keyword table other).
Proof. intros. apply keyword_ind_back; auto. Qed.
Lemma mime_type_back : forall E K i, post K (mime_type E i) i (clear_keyword mime_types CUnknown).
Proof.
  intros. unfold mime_type.
  match goal with |- post _ (match_parsers [pmap _ (tag_no_case _ ?a1 ?b1 ?m1); pmap _ (tag_no_case _ ?a2 ?b2 ?m2); pmap _ (tag_no_case _ ?a3 ?b3 ?m3);
     pmap _ (tag_no_case _ ?a4 ?b4 ?m4); pmap _ (tag_no_case _ ?a5 ?b5 ?m5); pmap _ (tag_no_case _ ?a6 ?b6 ?m6); pmap _ (tag_no_case _ ?a7 ?b7 ?m7); _] _) _ _ =>
    apply (keyword_back _ E K [(a1, b1, m1, CText); (a2, b2, m2, CMultipart); (a3, b3, m3, CApplication); (a4, b4, m4, CImage); (a5, b5, m5, CVideo);
       (a6, b6, m6, CAudio); (a7, b7, m7, CMessage)] CUnknown mime_types) end.
  - unfold mime_types. repeat apply Forall_cons; try apply Forall_nil; (split; [reflexivity|cbn [In]; tauto]).
  - keyword_table.
Qed.
Lemma encoding_name_back : forall E K i, post K (encoding_name E i) i (clear_keyword mime_encodings UnknownEnc).
Proof.
  intros. unfold encoding_name.
  match goal with |- post _ (match_parsers [pmap _ (tag_no_case _ ?a1 ?b1 ?m1); pmap _ (tag_no_case _ ?a2 ?b2 ?m2); pmap _ (tag_no_case _ ?a3 ?b3 ?m3);
     pmap _ (tag_no_case _ ?a4 ?b4 ?m4); pmap _ (tag_no_case _ ?a5 ?b5 ?m5); _] _) _ _ =>
    apply (keyword_back _ E K [(a1, b1, m1, SevenBit); (a2, b2, m2, QuotedPrintableEnc); (a3, b3, m3, Base64Enc); (a4, b4, m4, HeightBit); (a5, b5, m5, Binary)]
      UnknownEnc mime_encodings) end.
  - unfold mime_encodings. repeat apply Forall_cons; try apply Forall_nil; (split; [reflexivity|cbn [In]; tauto]).
  - keyword_table.
Qed.
Lemma disposition_kind_back : forall E K i, post K (disposition_kind E i) i (clear_keyword mime_dispositions DUnknown).
Proof.
  intros. unfold disposition_kind.
  match goal with |- post _ (match_parsers [pmap _ (tag_no_case _ ?a1 ?b1 ?m1); pmap _ (tag_no_case _ ?a2 ?b2 ?m2); _] _) _ _ =>
    apply (keyword_back _ E K [(a1, b1, m1, DInline); (a2, b2, m2, DAttachment)] DUnknown mime_dispositions) end.
  - unfold mime_dispositions. repeat apply Forall_cons; try apply Forall_nil; (split; [reflexivity|cbn [In]; tauto]).
  - keyword_table.
Qed.
Lemma encoding_back : forall E K i, post K (content_transfer_encoding E i) i (rfc_header "Content-Transfer-Encoding" clear_encoding).
Proof.
  intros. unfold content_transfer_encoding.
  match goal with |- post _ (bind _ ?k) _ _ => apply (post_name _ E K _ _ "Content-Transfer-Encoding" _ _ k) end; [reflexivity|reflexivity|]. intros r. cbn beta iota.
  step (sound_ocfws K). step (encoding_name_back E K). step (sound_inline_cfws K). stepcrlf. apply post_ok. eexists. split.
  - rewrite app_nil_r. rewrite !app_assoc. reflexivity.
  - rewrite <- !app_assoc. now constructor.
Qed.

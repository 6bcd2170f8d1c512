(* Completeness, part 2: atoms, quoted strings, words, unstructured text, identifiers and
   addr-specs. *)
From Coq Require Import Lia ZifyBool ZifyNat ZifyN.
From Verif Require Import Base Utf8 CharSets Combinators Whitespace QuotedString Common Address Rfc5322 Post SoundBase Steps Forward.
Local Open Scope N_scope.

Definition visible (c : byte) : Prop := 33 <= c <= 126.
(* r starts with a visible character that does not open a comment *)
Definition starts_visible (r : bytes) : Prop := exists c t, r = c :: t /\ visible c /\ c <> 40.
Lemma visible_wsp : forall c, visible c -> is_wsp c = false.
Proof. intros c H. destruct (is_wsp c) eqn:X; auto. apply wsp_spec in X. unfold visible in H. chars_lia. Qed.
Lemma starts_visible_follows : forall c r, starts_visible r -> follows c r.
Proof. intros c r (x & t & -> & H1 & H2). apply follows_head; auto using visible_wsp. unfold visible in H1. lia. Qed.
Lemma starts_visible_cons : forall c t, visible c -> c <> 40 -> starts_visible (c :: t).
Proof. intros c t H1 H2. exists c, t. auto. Qed.
Lemma starts_visible_app : forall a r, starts_visible a -> starts_visible (a ++ r).
Proof. intros a r (c & t & -> & H1 & H2). exists c, (t ++ r). auto. Qed.
Lemma chars1_starts : forall (P : byte -> Prop) a r, (forall c, P c -> visible c /\ c <> 40) -> chars1 P a -> starts_visible (a ++ r).
Proof. intros P [|c a] r H [H1 H2]; [congruence|]. inversion H2; subst. apply starts_visible_cons; now apply H. Qed.
Lemma atext_visible : forall c, rfc_atext c -> visible c /\ c <> 40.
Proof.
  intros c H. pose proof (rfc_atext_ascii c H). split; [exact H0|]. intros ->. apply atext_spec in H. discriminate.
Qed.
Lemma follows_after : forall l a r rest, chars1 visible a -> follows (l ++ a ++ r) rest <-> follows r rest.
Proof.
  intros l a r rest [Hn Ha]. destruct (exists_last Hn) as (x & d & ->). apply Forall_app in Ha as [_ Ha]. inversion Ha; subst.
  assert (X : settled (l ++ (x ++ [d]) ++ r) <-> settled r).
  { rewrite !app_assoc. rewrite <- (app_assoc l x [d]). rewrite (app_assoc l x [d]). apply settled_app; [now apply visible_wsp|unfold visible in *; lia]. }
  unfold follows. tauto.
Qed.
Lemma follows_after1 : forall l d r rest, visible d -> follows (l ++ [d] ++ r) rest <-> follows r rest.
Proof. intros. apply follows_after. split; [discriminate|]. apply Forall_cons; [assumption|apply Forall_nil]. Qed.

(* ---- one or two stretches of CFWS ---- *)
Lemma real_cfws_forward : forall t w r o, rfc_comments t -> optional fws (w ++ r) = Ok (r, o) -> ends (fun c => 40 =? c) r ->
  exists v, real_cfws (t ++ w ++ r) = Ok (r, v).
Proof.
  intros t w r o Ht Hw Hr.
  assert (F : exists e, fws_comment (w ++ r) = Err e).
  { unfold fws_comment. rewrite Hw. cbn [bind]. destruct (comment_err r Hr) as [e ->]. cbn. eauto. }
  destruct F as [e He].
  assert (X : exists l, l <> [] /\ steps fws_comment (t ++ w ++ r) l (w ++ r)).
  { induction Ht as [w1 v1 c H1 Hc|w1 v1 c t H1 Hc Ht (l & IHn & IH)].
    - eexists [_]. split; [discriminate|]. rewrite <- app_assoc. eapply steps_more; [eapply fws_comment_forward; eassumption| |eapply steps_stop; eauto].
      apply comment_head in Hc as [b ->]. rewrite !app_length. cbn [length]. lia.
    - eexists (_ :: l). split; [discriminate|]. rewrite <- !app_assoc. eapply steps_more; [eapply fws_comment_forward; eassumption| |exact IH].
      apply comment_head in Hc as [b ->]. rewrite !app_length. cbn [length]. lia. }
  destruct X as (l & Hn & Hs). inversion Hs as [i e' He' E1 E2 E3|i r1 a l1 r' H1 H2 H3 E1 E2 E3]; subst; [congruence|].
  unfold real_cfws. rewrite H1. cbn [map_err bind]. rewrite (many_steps _ _ _ _ _ H3). cbn [bind]. rewrite Hw. cbn [bind]. eauto.
Qed.
(* CFWS ending in a fold, before another fold *)
Lemma cfws_before_fold : forall t w v r, (t = [] \/ rfc_comments t) -> rfc_FWS w v -> ends (fun c => is_wsp c || (40 =? c)) r -> settled w ->
  skip_cfws (t ++ w ++ r) = Ok r.
Proof.
  intros t w v r Ht Hw Hr Hs. apply ends_or in Hr as [R1 R2].
  assert (W : fws (w ++ r) = Ok (r, v)) by (apply fws_forward; auto).
  assert (O : optional fws (w ++ r) = Ok (r, Some v)) by (unfold optional; now rewrite W).
  unfold skip_cfws, cfws. cbn [match_parsers]. destruct Ht as [->|Ht].
  - cbn [app]. assert (X : exists e, real_cfws (w ++ r) = Err e).
    { unfold real_cfws, fws_comment. rewrite O. cbn [bind]. destruct (comment_err r R2) as [e ->]. cbn. eauto. }
    destruct X as [e ->]. cbn [attempt]. rewrite W. reflexivity.
  - destruct (real_cfws_forward t w r _ Ht O R2) as [x ->]. reflexivity.
Qed.
(* two adjacent stretches of folding white space: one stretch, or two ending in folds *)
Lemma fws_join : forall w1 v1 w2 v2, rfc_oFWS w1 v1 -> rfc_oFWS w2 v2 ->
  (exists v, rfc_oFWS (w1 ++ w2) v) \/
  (exists x y u, w1 ++ w2 = x ++ CRLF ++ y /\ rfc_FWS x u /\ settled x /\ chars1 rfc_WSP y).
Proof.
  intros w1 v1 w2 v2 H1 H2. destruct H1 as [|w1 v1 H1]; [left; eexists; exact H2|].
  destruct H2 as [|w2 v2 H2]; [left; rewrite app_nil_r; eexists; constructor; exact H1|].
  destruct H1 as [w1 H1|x1 y1 X1 Y1]; destruct H2 as [w2 H2|x2 y2 X2 Y2].
  - left. exists (w1 ++ w2). constructor. constructor. destruct H1, H2. split; [destruct w1; [congruence|discriminate]|now apply Forall_app].
  - left. exists ((w1 ++ x2) ++ y2). rewrite app_assoc. constructor. constructor; auto. apply Forall_app. split; auto. apply H1.
  - left. exists (x1 ++ (y1 ++ w2)). rewrite <- !app_assoc. constructor. constructor; auto. destruct Y1, H2. split; [destruct y1; [congruence|discriminate]|now apply Forall_app].
  - right. exists (x1 ++ CRLF ++ (y1 ++ x2)), y2, (x1 ++ y1 ++ x2). rewrite <- !app_assoc.
    assert (Y : chars1 rfc_WSP (y1 ++ x2)) by (destruct Y1; split; [destruct y1; [congruence|discriminate]|now apply Forall_app]).
    repeat split; auto; [now constructor|apply settled_fold; apply Y|apply Y2|apply Y2].
Qed.
Lemma comments_ofws : forall t w v, rfc_comments t -> rfc_oFWS w v -> rfc_oCFWS (t ++ w).
Proof. intros. constructor. econstructor; eauto. Qed.
Lemma comments_app : forall t w v t2, rfc_comments t -> rfc_comments t2 -> rfc_oFWS w v ->
  (* t2 starts with its own white space *) (forall x y c s, t2 = x ++ c ++ s -> rfc_oFWS x y -> rfc_comment c -> exists z, rfc_oFWS (w ++ x) z) ->
  rfc_comments (t ++ w ++ t2).
Proof.
  intros t w v t2 Ht H2 Hw Hj.
  assert (X : rfc_comments (w ++ t2)).
  { destruct H2 as [w2 v2 c W2 C2|w2 v2 c s W2 C2 S2].
    - destruct (Hj w2 v2 c []) as [z Hz]; auto; [now rewrite app_nil_r|]. rewrite app_assoc. econstructor; eauto.
    - destruct (Hj w2 v2 c s) as [z Hz]; auto. rewrite app_assoc. eapply comments_more; eauto. }
  clear - Ht X. induction Ht as [w1 v1 c W1 C1|w1 v1 c s W1 C1 S1 IH].
  - rewrite <- !app_assoc. eapply comments_more; eauto.
  - rewrite <- !app_assoc. eapply comments_more; eauto.
Qed.
Lemma crlf_no_paren : forall y r, ends (fun c => is_wsp c || (40 =? c)) (CRLF ++ y ++ r). Proof. reflexivity. Qed.
(* CFWS, then CFWS again *)
Definition cfws_parts (c : bytes) : Prop := exists t w v, c = t ++ w /\ (t = [] \/ rfc_comments t) /\ rfc_oFWS w v.
Lemma cfws_parts_of : forall c, rfc_oCFWS c <-> cfws_parts c.
Proof.
  intros c. split.
  - intros [|c' [t w v Ht Hw|w v Hw]].
    + exists [], [], []. repeat split; auto. constructor.
    + exists t, w, v. auto.
    + exists [], w, v. repeat split; auto. now constructor.
  - intros (t & w & v & -> & [->|Ht] & Hw).
    + cbn. destruct Hw; [constructor|]. constructor. eapply CFWS_fws; eauto.
    + constructor. econstructor; eauto.
Qed.
Lemma comments_split : forall t, rfc_comments t -> exists w v c s, t = w ++ c ++ s /\ rfc_oFWS w v /\ rfc_comment c /\ (s = [] \/ rfc_comments s).
Proof.
  intros t [w v c Hw Hc|w v c s Hw Hc Hs].
  - exists w, v, c, []. rewrite app_nil_r. auto 6.
  - exists w, v, c, s. auto 6.
Qed.
Lemma comments_join : forall w v c s, rfc_oFWS w v -> rfc_comment c -> (s = [] \/ rfc_comments s) -> rfc_comments (w ++ c ++ s).
Proof. intros w v c s Hw Hc [->|Hs]; [rewrite app_nil_r; econstructor; eauto|eapply comments_more; eauto]. Qed.
Lemma comments_glue : forall t s, (t = [] \/ rfc_comments t) -> rfc_comments s -> rfc_comments (t ++ s).
Proof.
  intros t s [->|Ht] Hs; auto. induction Ht as [w1 v1 c W1 C1|w1 v1 c s1 W1 C1 S1 IH].
  - rewrite <- !app_assoc. eapply comments_more; eauto.
  - rewrite <- !app_assoc. eapply comments_more; eauto.
Qed.
Lemma two_cfws : forall c1 c2 r, rfc_oCFWS c1 -> rfc_oCFWS c2 -> starts_visible r ->
  exists c', rfc_oCFWS c' /\ skip_cfws (c1 ++ c2 ++ r) = Ok (c' ++ r).
Proof.
  intros c1 c2 r H1 H2 Hr. apply cfws_parts_of in H1 as (t1 & w1 & v1 & -> & T1 & W1). apply cfws_parts_of in H2 as (t2 & w2 & v2 & -> & T2 & W2).
  assert (Whole : forall c, rfc_oCFWS c -> c = t1 ++ w1 ++ t2 ++ w2 -> exists c', rfc_oCFWS c' /\ skip_cfws ((t1 ++ w1) ++ (t2 ++ w2) ++ r) = Ok (c' ++ r)).
  { intros c Hc E. exists []. split; [constructor|]. cbn [app].
    replace ((t1 ++ w1) ++ (t2 ++ w2) ++ r) with (c ++ r) by (rewrite E; now rewrite <- !app_assoc).
    apply skip_cfws_forward; auto. now apply starts_visible_follows. }
  destruct T2 as [->|T2].
  - (* white space only *)
    destruct (fws_join w1 v1 w2 v2 W1 W2) as [[v Hv]|(x & y & u & E & Hx & Sx & Hy)].
    + apply (Whole (t1 ++ w1 ++ w2)); [|reflexivity]. apply cfws_parts_of. exists t1, (w1 ++ w2), v. auto.
    + exists (CRLF ++ y). split.
      * constructor. eapply CFWS_fws. apply (FWS_fold []); [constructor|auto].
      * cbn [app]. rewrite <- app_assoc. rewrite (app_assoc w1 w2). rewrite E. rewrite <- !app_assoc. eapply cfws_before_fold; eauto. apply crlf_no_paren.
  - destruct (comments_split t2 T2) as (a & va & c & s & -> & Ha & Hc & Hs).
    destruct (fws_join w1 v1 a va W1 Ha) as [[v Hv]|(x & y & u & E & Hx & Sx & Hy)].
    + apply (Whole ((t1 ++ (w1 ++ a) ++ c ++ s) ++ w2)); [|now rewrite <- !app_assoc]. eapply comments_ofws; eauto.
      apply comments_glue; auto. eapply comments_join; eauto.
    + exists (((CRLF ++ y) ++ c ++ s) ++ w2). split.
      * eapply comments_ofws; eauto. apply (comments_join (CRLF ++ y) ([] ++ y)); auto. constructor. apply (FWS_fold []); [constructor|auto].
      * replace ((t1 ++ w1) ++ ((a ++ c ++ s) ++ w2) ++ r) with (t1 ++ (w1 ++ a) ++ c ++ s ++ w2 ++ r) by (now rewrite <- !app_assoc).
        rewrite E. replace ((((CRLF ++ y) ++ c ++ s) ++ w2) ++ r) with (CRLF ++ y ++ c ++ s ++ w2 ++ r) by (now rewrite <- !app_assoc).
        rewrite <- !app_assoc. eapply cfws_before_fold; eauto. apply crlf_no_paren.
Qed.

(* ---- atoms ---- *)
Lemma CFWS_head : forall c, rfc_CFWS c -> exists x t, c = x :: t /\ (x = 32 \/ x = 9 \/ x = 13 \/ x = 40).
Proof.
  assert (W : forall c v, rfc_FWS c v -> exists x t, c = x :: t /\ (x = 32 \/ x = 9 \/ x = 13 \/ x = 40)).
  { intros c v [w [Hn Hw]|w1 w2 H1 H2].
    - destruct w as [|x w]; [congruence|]. inversion Hw; subst. exists x, w. unfold rfc_WSP in *. tauto.
    - destruct w1 as [|x w1]; [exists 13, (10 :: w2); tauto|]. inversion H1; subst. exists x, (w1 ++ CRLF ++ w2). unfold rfc_WSP in *. tauto. }
  assert (O : forall w v c, rfc_oFWS w v -> rfc_comment c -> forall s, exists x t, w ++ c ++ s = x :: t /\ (x = 32 \/ x = 9 \/ x = 13 \/ x = 40)).
  { intros w v c [|w' v' H] Hc s.
    - apply comment_head in Hc as [b ->]. exists 40, (b ++ s). tauto.
    - destruct (W _ _ H) as (x & t & -> & Hx). exists x, (t ++ c ++ s). auto. }
  intros c [t w v Ht Hw|w v Hw]; [|eauto].
  apply comments_split in Ht as (a & va & cc & s & -> & Ha & Hc & _). rewrite <- !app_assoc. eapply O; eauto.
Qed.
Lemma oCFWS_ends : forall (f : byte -> bool) c r, rfc_oCFWS c -> f 32 = false -> f 9 = false -> f 13 = false -> f 40 = false -> (c = [] -> ends f r) -> ends f (c ++ r).
Proof.
  intros f c r [|c' H] F1 F2 F3 F4 Hr; [auto|]. destruct (CFWS_head _ H) as (x & t & -> & Hx). cbn. now destruct Hx as [->|[->|[->| ->]]].
Qed.
Lemma atom_core : forall l a i, rfc_oCFWS l -> chars1 rfc_atext a -> ends is_atext i ->
  atom (l ++ a ++ i) = let* j := skip_cfws i in Ok (j, a).
Proof.
  intros l a i Hl Ha Hi. unfold atom. rewrite (skip_cfws_forward l (a ++ i)); [|auto|].
  - cbn [bind]. rewrite (take_while1_app is_atext rfc_atext a i atext_spec atext_ascii Ha Hi). reflexivity.
  - apply starts_visible_follows. eapply chars1_starts; [exact atext_visible|exact Ha].
Qed.
Lemma atom_forward : forall l a r i, rfc_oCFWS l -> chars1 rfc_atext a -> rfc_oCFWS r -> follows r i -> (r = [] -> ends is_atext i) ->
  atom (l ++ a ++ r ++ i) = Ok (i, a).
Proof.
  intros l a r i Hl Ha Hr Hf Hi. rewrite atom_core; auto.
  - rewrite (skip_cfws_forward r i) by auto. reflexivity.
  - apply oCFWS_ends; auto.
Qed.
Lemma dot_tail_head : forall b t, rfc_dot_tail b t -> t = [] \/ exists t', t = 46 :: t'.
Proof. intros b t [|a t' H1 H2 H3]; [now left|right; eexists; reflexivity]. Qed.
Lemma dot_atom_text_forward : forall E t i, rfc_dot_atom_text (f_compatibility_fixes E) t -> ends is_atext i -> ends (fun c => 46 =? c) i ->
  dot_atom_text E (t ++ i) = Ok (i, t).
Proof.
  intros E t i [a t' Ha Ht] H1 H2. unfold dot_atom_text. rewrite <- app_assoc.
  rewrite (take_while1_app is_atext rfc_atext a (t' ++ i) atext_spec atext_ascii Ha).
  - cbn [bind]. assert (S : exists l, steps (dot_atom_step E) (t' ++ i) l i /\ concat l = t').
    { clear Ha. induction Ht as [|b t2 Hb Hc Ht (l & IH & <-)].
      - exists []. split; [|reflexivity]. eapply steps_stop. cbn [app]. unfold dot_atom_step. change (bs ".") with [46].
        destruct (starts_with i [46]) eqn:X; [|reflexivity]. apply starts_with_spec in X as [x ->]. discriminate H2.
      - exists ((bs "." ++ b) :: l). split; [|reflexivity]. rewrite <- !app_assoc. eapply steps_more; [| |exact IH]; [|rewrite !app_length; cbn [length]; lia].
        unfold dot_atom_step. change (bs ".") with [46]. rewrite starts_with_app. change 1%nat with (length [46]). rewrite index_from_app. cbn [bind].
        assert (T : ends is_atext (concat l ++ i)) by (destruct (dot_tail_head _ _ Ht) as [->|[t3 ->]]; [exact H1|reflexivity]).
        destruct (f_compatibility_fixes E).
        + rewrite (take_while_app is_atext rfc_atext b _ atext_spec atext_ascii Hb T). reflexivity.
        + destruct Hc as [Hc|Hc]; [discriminate|]. rewrite (take_while1_app is_atext rfc_atext b _ atext_spec atext_ascii (conj Hc Hb) T). reflexivity. }
    destruct S as (l & S & <-). rewrite (collect_many_steps _ _ _ _ S). reflexivity.
  - destruct (dot_tail_head _ _ Ht) as [->|[x ->]]; [exact H1|reflexivity].
Qed.
Lemma dot_atom_text_chars : forall b t, rfc_dot_atom_text b t -> chars1 visible t /\ starts_visible t.
Proof.
  intros b t [a t' Ha Ht]. split.
  - destruct Ha as [Hn Ha]. split; [destruct a; [congruence|discriminate]|]. apply Forall_app. split.
    + eapply Forall_impl; [|exact Ha]. intros c Hc. now apply atext_visible.
    + induction Ht as [|x t2 Hx Hc Ht IH]; [constructor|]. constructor; [unfold visible; lia|]. apply Forall_app. split; auto.
      eapply Forall_impl; [|exact Hx]. intros c Hc'. now apply atext_visible.
  - eapply chars1_starts; [exact atext_visible|exact Ha].
Qed.
Definition plain_end (i : bytes) : Prop := ends is_atext i /\ ends (fun c => 46 =? c) i.
Lemma dot_atom_forward : forall E c v i, rfc_dot_atom (f_compatibility_fixes E) c v -> follows c i -> plain_end i -> dot_atom E (c ++ i) = Ok (i, v).
Proof.
  intros E c v i [l a r Hl Ha Hr] Hf [H1 H2]. destruct (dot_atom_text_chars _ _ Ha) as [Va Sa].
  apply follows_after in Hf; auto. unfold dot_atom. rewrite <- !app_assoc.
  rewrite (skip_cfws_forward l); [|auto|apply starts_visible_follows; now apply starts_visible_app]. cbn [bind].
  rewrite dot_atom_text_forward; [|auto|apply oCFWS_ends; auto|apply oCFWS_ends; auto]. cbn [bind].
  rewrite (skip_cfws_forward r) by auto. reflexivity.
Qed.
Lemma dot_atom_none : forall E l c t, rfc_oCFWS l -> visible c -> c <> 40 -> is_atext c = false -> exists e, dot_atom E (l ++ c :: t) = Err e.
Proof.
  intros E l c t Hl H1 H2 H3. unfold dot_atom. rewrite (skip_cfws_forward l); [|auto|apply starts_visible_follows; now apply starts_visible_cons]. cbn [bind].
  unfold dot_atom_text. destruct (take_while1_err is_atext (c :: t)) as [e ->]; [exact H3|]. cbn. eauto.
Qed.
Lemma atom_none : forall l c t, rfc_oCFWS l -> visible c -> c <> 40 -> is_atext c = false -> exists e, atom (l ++ c :: t) = Err e.
Proof.
  intros l c t Hl H1 H2 H3. unfold atom. rewrite (skip_cfws_forward l); [|auto|apply starts_visible_follows; now apply starts_visible_cons]. cbn [bind].
  destruct (take_while1_err is_atext (c :: t)) as [e ->]; [exact H3|]. cbn. eauto.
Qed.

(* ---- quoted strings ---- *)
Definition qitem (q y : bytes) : Prop := exists c, y = [c] /\ rfc_quoted_pair q c.
Lemma qitem_head : forall q y, qitem q y -> q <> [] /\ ends is_qtext q.
Proof. intros q y (c & -> & [c' H]). split; [discriminate|reflexivity]. Qed.
Lemma qbody_items : forall b v, rfc_qbody b v -> exists b' x w y, b = b' ++ w /\ v = x ++ y /\ items rfc_qtext qitem b' x /\ rfc_oFWS w y.
Proof.
  intros b v H. induction H as [w v Hw|w v t c b x Hw Ht Hb (b' & x' & w' & y' & -> & -> & Hi & Hw')].
  - exists [], [], w, v. repeat split; auto. constructor.
  - exists (w ++ t ++ b'), (v ++ [c] ++ x'), w', y'. rewrite <- !app_assoc. repeat split; auto. destruct Ht as [c Hc|t c Hc].
    + now apply items_char.
    + apply items_item; auto. exists c. auto.
Qed.
Lemma qtext_inner : forall c, rfc_qtext c -> is_wsp c || (c =? 13) = false.
Proof. intros c H. destruct (is_wsp c) eqn:X; [apply wsp_spec in X; chars_lia|]. chars_lia. Qed.
Lemma fws_or_inner2 : forall (w v r : bytes), rfc_oFWS w v -> ends (fun c => is_wsp c || (c =? 13)) r ->
  attempt (fws (w ++ r)) (fun '(r, s) => Ok (r, s)) (Ok (w ++ r, [])) = Ok (r, v).
Proof. intros w v r H Hr. pose proof (fws_or_inner w v r H Hr) as F. destruct (fws (w ++ r)) as [[? ?]| |]; exact F. Qed.
Ltac use_fws F := lazymatch type of F with _ = ?R => lazymatch goal with |- context [attempt (fws ?x) ?f ?g] => replace (attempt (fws x) f g) with R by (symmetry; exact F) end end.
Lemma quoted_string_core : forall l b v i, rfc_oCFWS l -> rfc_qbody b v ->
  quoted_string (l ++ [34] ++ b ++ [34] ++ i) = let* j := skip_cfws i in Ok (j, v).
Proof.
  intros l b v i Hl Hb. apply qbody_items in Hb as (b' & x & w & y & -> & -> & Hi & Hw). unfold quoted_string.
  rewrite (skip_cfws_forward l); [|auto|apply starts_visible_follows; apply starts_visible_cons; [unfold visible; lia|discriminate]]. cbn [bind].
  unfold DQUOTE. rewrite starts_with_app. change 1%nat with (length [34]). rewrite index_from_app. cbn [bind]. rewrite <- !app_assoc.
  destruct (runs_of_items is_qtext rfc_qtext qitem) with (c := b') (x := x) as (l' & Hl' & ->); [exact qitem_head|now repeat split|exact Hi|].
  destruct (runs_steps (A := bytes) is_qtext rfc_qtext qitem) with (R := fun x v a : bytes => x = v ++ a) (p := quoted_string_step) (r := w ++ [34] ++ i) (c := b') (l := l')
    as (l2 & Hs & Hv); [exact qitem_head|now repeat split| | | | |exact Hl'|].
  { intros w0 v0 a t H0 Ha Ht. eexists. split; [|reflexivity]. unfold quoted_string_step.
    pose proof (fws_or_inner2 w0 v0 (a ++ t) H0 (chars1_ends _ _ _ _ qtext_inner Ha)) as F.
    use_fws F. cbn [bind]. rewrite (take_while1_app is_qtext rfc_qtext a t qtext_spec qtext_ascii Ha Ht). reflexivity. }
  { intros w0 v0 q y0 t H0 Hq. destruct (qitem_head _ _ Hq) as [Q1 Q2]. destruct Hq as (c & -> & Hq). eexists. split; [|reflexivity]. unfold quoted_string_step.
    pose proof (fws_or_inner2 w0 v0 (q ++ t) H0 ltac:(now destruct Hq)) as F. use_fws F. cbn [bind]. destruct (take_while1_err is_qtext (q ++ t)) as [e ->]; [now apply ends_app|]. cbn [attempt].
    rewrite (quoted_pair_forward q c) by auto. reflexivity. }
  { unfold quoted_string_step.
    pose proof (fws_or_inner2 w y ([34] ++ i) Hw eq_refl) as F. use_fws F. eexists. reflexivity. }
  { eapply oFWS_ends; eauto; reflexivity. }
  rewrite (collect_many_steps _ _ _ _ Hs). cbn [bind]. apply runs_value_concat in Hv. rewrite Hv.
  assert (F : attempt (fws (w ++ [34] ++ i)) (fun '(r, s) => Ok (r, runs_value l' ++ s)) (Ok (w ++ [34] ++ i, runs_value l')) = Ok ([34] ++ i, runs_value l' ++ y)).
  { destruct Hw as [|w y Hw].
    - destruct (fws_none ([] ++ [34] ++ i)) as [e ->]; [reflexivity|exact I|]. cbn. now rewrite app_nil_r.
    - rewrite (fws_forward w y); [reflexivity|auto|reflexivity|left; reflexivity]. }
  use_fws F. cbn [bind]. rewrite starts_with_app. change 1%nat with (length [34]). rewrite index_from_app. reflexivity.
Qed.
Lemma quoted_string_forward : forall c v i, rfc_quoted_string c v -> follows c i -> quoted_string (c ++ i) = Ok (i, v).
Proof.
  intros c v i [l b v' r Hl Hb Hr] Hf.
  replace (l ++ [34] ++ b ++ [34] ++ r) with ((l ++ [34] ++ b) ++ [34] ++ r) in Hf by (now rewrite <- !app_assoc).
  apply follows_after1 in Hf; [|unfold visible; lia]. rewrite <- !app_assoc. rewrite (quoted_string_core l b v') by auto.
  rewrite (skip_cfws_forward r i) by auto. reflexivity.
Qed.

(* ---- unstructured text ---- *)
Lemma utext_items : forall t v, rfc_utext t v -> items rfc_VCHAR (fun _ _ => False) t v.
Proof. intros t v H. induction H; [constructor|]. now apply items_char. Qed.
Lemma vchar_inner : forall c, rfc_VCHAR c -> is_wsp c || (c =? 13) = false.
Proof. intros c H. destruct (is_wsp c) eqn:X; [apply wsp_spec in X; chars_lia|]. chars_lia. Qed.
Lemma unstructured_forward : forall c v i, rfc_unstructured c v -> ends is_wsp i -> unstructured (c ++ CRLF ++ i) = Ok (CRLF ++ i, v).
Proof.
  intros c v i [t v' w Ht Hw] Hi. unfold unstructured. rewrite <- app_assoc. apply utext_items in Ht.
  destruct (runs_of_items is_vchar rfc_VCHAR (fun _ _ => False)) with (c := t) (x := v') as (l & Hl & ->); [tauto|now repeat split|exact Ht|].
  destruct (runs_steps (A := bytes) is_vchar rfc_VCHAR (fun _ _ => False)) with (R := fun x v a : bytes => x = v ++ a) (p := unstructured_step) (r := w ++ CRLF ++ i) (c := t) (l := l)
    as (l2 & Hs & Hv); [tauto|now repeat split| | | | |exact Hl|].
  { intros w0 v0 a r H0 Ha Hr. eexists. split; [|reflexivity]. unfold unstructured_step, collect_pair.
    rewrite (fws_or_inner w0 v0); [|auto|eapply chars1_ends; [exact vchar_inner|exact Ha]]. cbn [bind].
    rewrite (take_while1_app is_vchar rfc_VCHAR a r vchar_spec vchar_ascii Ha Hr). reflexivity. }
  { intros. tauto. }
  { unfold unstructured_step, collect_pair. destruct (fws_blank_crlf w i Hw Hi) as [e ->]. cbn [attempt bind].
    destruct (take_while1_err is_vchar (w ++ CRLF ++ i)) as [e' ->]; [|cbn; eauto].
    destruct w as [|x w]; [reflexivity|]. inversion Hw; subst. unfold rfc_WSP in *. destruct H1; subst; reflexivity. }
  { destruct w as [|x w]; [reflexivity|]. inversion Hw; subst. unfold rfc_WSP in *. destruct H1; subst; reflexivity. }
  rewrite (collect_many_steps _ _ _ _ Hs). cbn [bind]. apply runs_value_concat in Hv. rewrite Hv.
  assert (B : ignore_many (take_while1 is_wsp) (w ++ CRLF ++ i) = Ok (CRLF ++ i, tt)).
  { destruct w as [|x w].
    - cbn [app]. destruct (take_while1_err is_wsp (CRLF ++ i)) as [e He]; [reflexivity|]. eapply ignore_many_steps. eapply steps_stop; eauto.
    - eapply ignore_many_steps. eapply steps_more; [apply (take_while1_app is_wsp rfc_WSP (x :: w) (CRLF ++ i) wsp_spec wsp_ascii)| |].
      + split; [discriminate|exact Hw].
      + reflexivity.
      + rewrite !app_length. cbn [length]. lia.
      + destruct (take_while1_err is_wsp (CRLF ++ i)) as [e He]; [reflexivity|]. eapply steps_stop; eauto. }
  rewrite B. reflexivity.
Qed.

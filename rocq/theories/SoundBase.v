(* Soundness, part 1: white space, comments, atoms, quoted strings, words. *)
From Coq Require Import Lia ZifyBool ZifyNat ZifyN.
From Verif Require Import Base Utf8 CharSets Combinators Whitespace QuotedString Common Rfc5322 Post.
Local Open Scope N_scope.

(* ---- character classes ---- *)
Lemma wsp_spec : forall c, is_wsp c = true <-> rfc_WSP c.
Proof. intros. unfold is_wsp, rfc_WSP. lia. Qed.
Lemma vchar_spec : forall c, is_vchar c = true <-> rfc_VCHAR c.
Proof. intros. unfold is_vchar, rfc_VCHAR. lia. Qed.
Lemma ctext_spec : forall c, is_ctext c = true <-> rfc_ctext c.
Proof. intros. unfold is_ctext, rfc_ctext. lia. Qed.
Lemma qtext_spec : forall c, is_qtext c = true <-> rfc_qtext c.
Proof. intros. unfold is_qtext, rfc_qtext. lia. Qed.
Lemma dtext_spec : forall c, is_dtext c = true <-> rfc_dtext c.
Proof. intros. unfold is_dtext, rfc_dtext. lia. Qed.
Lemma ftext_spec : forall c, is_ftext c = true <-> rfc_ftext c.
Proof. intros. unfold is_ftext, rfc_ftext. lia. Qed.
Lemma digit_spec : forall c, is_digit c = true <-> rfc_DIGIT c.
Proof. intros. unfold is_digit, rfc_DIGIT. lia. Qed.
Lemma alpha_spec : forall c, is_alpha c = true <-> rfc_ALPHA c.
Proof. intros. unfold is_alpha, rfc_ALPHA. lia. Qed.
Lemma text_spec : forall c, is_text c = true <-> rfc_text c.
Proof. intros. unfold is_text, rfc_text. lia. Qed.
Lemma one_of_spec : forall s c, one_of s c = true <-> In c (bs s).
Proof.
  intros. unfold one_of. rewrite existsb_exists. split.
  - intros (x & Hx & H). apply N.eqb_eq in H. now subst.
  - intros H. exists c. split; auto. apply N.eqb_refl.
Qed.
Lemma atext_spec : forall c, is_atext c = true <-> rfc_atext c.
Proof.
  intros. unfold is_atext, rfc_atext. rewrite !orb_true_iff, alpha_spec, digit_spec, one_of_spec.
  change (bs "!#$%&'*+-/=?^_`{|}~") with [33; 35; 36; 37; 38; 39; 42; 43; 45; 47; 61; 63; 94; 95; 96; 123; 124; 125; 126].
  tauto.
Qed.

Lemma Forall_spec : forall (f : byte -> bool) (P : byte -> Prop) l,
  (forall c, f c = true <-> P c) -> (Forall (fun c => f c = true) l <-> chars P l).
Proof.
  intros f P l H. unfold chars. rewrite !Forall_forall. split; intros K c Hc; apply H; auto.
Qed.
Ltac chars_lia := intros; unfold rfc_WSP, rfc_VCHAR, rfc_ctext, rfc_qtext, rfc_dtext, rfc_ftext, rfc_DIGIT, rfc_ALPHA, rfc_text in *; unfold ascii_byte; lia.
Lemma wsp_ascii : forall c, is_wsp c = true -> ascii_byte c. Proof. intros c H. apply wsp_spec in H. chars_lia. Qed.
Lemma vchar_ascii : forall c, is_vchar c = true -> ascii_byte c. Proof. intros c H. apply vchar_spec in H. chars_lia. Qed.
Lemma ctext_ascii : forall c, is_ctext c = true -> ascii_byte c. Proof. intros c H. apply ctext_spec in H. chars_lia. Qed.
Lemma qtext_ascii : forall c, is_qtext c = true -> ascii_byte c. Proof. intros c H. apply qtext_spec in H. chars_lia. Qed.
Lemma dtext_ascii : forall c, is_dtext c = true -> ascii_byte c. Proof. intros c H. apply dtext_spec in H. chars_lia. Qed.
Lemma ftext_ascii : forall c, is_ftext c = true -> ascii_byte c. Proof. intros c H. apply ftext_spec in H. chars_lia. Qed.
Lemma digit_ascii : forall c, is_digit c = true -> ascii_byte c. Proof. intros c H. apply digit_spec in H. chars_lia. Qed.
Lemma rfc_atext_ascii : forall c, rfc_atext c -> 33 <= c <= 126.
Proof.
  intros c [H|[H|H]]; [chars_lia|chars_lia|]. cbn [In] in H.
  repeat (destruct H as [<-|H]; [lia|]). destruct H.
Qed.
Lemma atext_ascii : forall c, is_atext c = true -> ascii_byte c.
Proof. intros c H. apply atext_spec in H. apply rfc_atext_ascii in H. unfold ascii_byte. lia. Qed.

(* take_while(1) of a class *)
Lemma sound_take_while : forall K f P i, (forall c, f c = true <-> P c) -> (forall c, f c = true -> ascii_byte c) ->
  post K (take_while f i) i (fun c v => v = c /\ chars P c).
Proof.
  intros K f P i H Ha. eapply post_weaken; [apply post_take_while; auto|].
  intros c a [-> Hc]. split; auto. now apply (Forall_spec f P).
Qed.
Lemma sound_take_while1 : forall K f P i, (forall c, f c = true <-> P c) -> (forall c, f c = true -> ascii_byte c) ->
  post K (take_while1 f i) i (fun c v => v = c /\ chars1 P c).
Proof.
  intros K f P i H Ha. eapply post_weaken; [apply post_take_while1; auto|].
  intros c a (-> & Hn & Hc). split; auto. split; auto. now apply (Forall_spec f P).
Qed.

(* one step through a bind *)
Ltac step L := eapply post_bind; [apply L | let c := fresh "c" in let r := fresh "r" in let a := fresh "a" in
  let Hi := fresh "Hi" in let H := fresh "H" in intros c r a Hi H; cbv beta in H; cbn beta iota].
Ltac rstep L := eapply post_bind_r; [apply L | let c := fresh "c" in let r := fresh "r" in
  let Hi := fresh "Hi" in let H := fresh "H" in intros c r Hi H; cbv beta in H; cbn beta iota].

(* ---- folding white space ---- *)
Lemma sound_fws : forall K i, post K (fws i) i rfc_FWS.
Proof.
  intros. unfold fws.
  eapply post_bind.
  { apply post_optional. apply (post_pair_p _ _ K _ _ _ (fun c v => v = c /\ chars rfc_WSP c) (fun c _ => c = CRLF)).
    - apply sound_take_while; [apply wsp_spec|apply wsp_ascii].
    - intros. apply post_tag. }
  intros c r o _ Ho. cbn beta iota.
  step (sound_take_while1 K is_wsp rfc_WSP r wsp_spec wsp_ascii).
  destruct H as [-> H]. destruct o as [[b u]|].
  - destruct Ho as (c1 & c2 & -> & [Hb Hc1] & ->). cbn in Hb. subst b.
    apply post_ok. rewrite app_nil_r, <- app_assoc. now apply FWS_fold.
  - subst c. apply post_ok. rewrite app_nil_r. now apply FWS_plain.
Qed.
Lemma FWS_nonempty : forall c v, rfc_FWS c v -> c <> [].
Proof. intros c v [w [H _]|w1 w2 _ _]; auto. destruct w1; discriminate. Qed.
Lemma sound_ofws : forall K i, post K (optional fws i) i (fun c o => rfc_oFWS c (match o with Some v => v | None => [] end)).
Proof.
  intros. eapply post_weaken; [apply post_optional, sound_fws|]. intros c [v|]; cbn.
  - now constructor.
  - intros ->. constructor.
Qed.

(* ---- quoted pairs ---- *)
Lemma sound_quoted_pair : forall K i, post K (quoted_pair i) i (fun c v => exists x, v = [x] /\ rfc_quoted_pair c x).
Proof.
  intros. unfold quoted_pair. eapply post_bind; [apply post_tag|]. intros c r [] _ ->. cbn beta iota.
  destruct r as [|x r]; [exact I|]. destruct (is_vchar x || is_wsp x) eqn:H; [|exact I].
  change (x :: r) with ([x] ++ r) at 1 2. change 1%nat with (length [x]).
  rewrite unchecked_from_app, unchecked_to_app. cbn [bind].
  apply orb_true_iff in H. rewrite vchar_spec, wsp_spec in H.
  rewrite str_unchecked_ascii by (repeat constructor; chars_lia). cbn [bind].
  exists [x]. split; auto. exists x. split; auto. now constructor.
Qed.

(* ---- comments ---- *)
Lemma cbody_ctext : forall a b, Forall rfc_ctext a -> rfc_cbody b -> rfc_cbody (a ++ b).
Proof.
  intros a b H Hb. induction H as [|x a Hx Ha IH]; auto.
  change ((x :: a) ++ b) with ([] ++ [x] ++ (a ++ b)). eapply cbody_cons; eauto; constructor. exact Hx.
Qed.
Lemma cbody_oFWS_ctext : forall w v a b, rfc_oFWS w v -> chars1 rfc_ctext a -> rfc_cbody b -> rfc_cbody (w ++ a ++ b).
Proof.
  intros w v a b Hw [Hne Ha] Hb. destruct a as [|x a]; [congruence|]. inversion Ha; subst.
  change ((x :: a) ++ b) with ([x] ++ (a ++ b)). eapply cbody_cons; eauto; [now constructor|now apply cbody_ctext].
Qed.

Definition ccontent_chunk (c : bytes) : Prop := chars1 rfc_ctext c \/ rfc_ccontent c.
Definition fws_ccontent (c : bytes) (p : option bytes * bytes) : Prop :=
  exists c1 c2, c = c1 ++ c2 /\ rfc_oFWS c1 (match fst p with Some v => v | None => [] end) /\ ccontent_chunk c2.

Lemma comment_nonempty : forall c, rfc_comment c -> c <> [].
Proof. intros c H. inversion H. discriminate. Qed.
Lemma ccontent_chunk_nonempty : forall c, ccontent_chunk c -> c <> [].
Proof.
  intros c [[H _]|H]; auto. inversion H; subst; try discriminate.
  - inversion H0; discriminate.
  - now apply comment_nonempty.
Qed.
Lemma fws_ccontent_nonempty : forall c p, fws_ccontent c p -> c <> [].
Proof.
  intros c p (c1 & c2 & -> & _ & H) E. apply app_eq_nil in E as [_ ->]. now apply (ccontent_chunk_nonempty []).
Qed.
Lemma cbody_many : forall c l w v, many_of fws_ccontent c l -> rfc_oFWS w v -> rfc_cbody (c ++ w).
Proof.
  intros c l w v H Hw. induction H as [|c a cs l (c1 & c2 & -> & H1 & H2) Hl IH].
  - cbn. eapply cbody_end; eauto.
  - rewrite <- !app_assoc. destruct H2 as [H2|H2].
    + eapply cbody_oFWS_ctext; eauto.
    + eapply cbody_cons; eauto.
Qed.

Lemma sound_comment_d : forall K d i, (length i < d)%nat -> post K (comment_d d i) i (fun c v => v = [] /\ rfc_comment c).
Proof.
  intros K d. induction d as [|d IH]; intros i Hd; [lia|]. cbn [comment_d].
  eapply post_bind; [apply post_tag|]. intros c r [] -> ->. cbn beta iota.
  rewrite app_length in Hd. cbn [length] in Hd. change (length (bs "(")) with 1%nat in Hd.
  eapply post_bind.
  { apply (post_ignore_many _ K _ fws_ccontent); [intros; eapply fws_ccontent_nonempty; eauto|].
    intros j Hj. eapply post_weaken.
    - apply (post_pair_p _ _ K (optional fws) _ j
        (fun c o => rfc_oFWS c (match o with Some v => v | None => [] end)) (fun c _ => ccontent_chunk c)).
      + apply sound_ofws.
      + intros j' Hj'. apply post_Forall_match. repeat apply Forall_cons; [| | |apply Forall_nil].
        * eapply post_weaken; [apply (sound_take_while1 _ _ _ _ ctext_spec ctext_ascii)|]. intros ? ? [_ ?]. now left.
        * eapply post_weaken; [apply sound_quoted_pair|]. intros ? ? (x & _ & ?). right. econstructor; eauto.
        * eapply post_weaken; [apply IH; lia|]. intros ? ? [_ ?]. right. now constructor.
    - intros c a (c1 & c2 & -> & H1 & H2). exists c1, c2. auto. }
  intros c r' [] -> (l & Hl). cbn beta iota. step (sound_ofws K).
  eapply post_bind; [apply post_tag|]. intros c' r'' [] -> ->. cbn beta iota. apply post_ok. split; auto.
  rewrite app_nil_r. rewrite !app_assoc. rewrite <- (app_assoc (bs "(")). rewrite <- app_assoc.
  apply (comment_intro (c ++ c0)). eapply cbody_many; eauto.
Qed.
Lemma sound_comment : forall K i, post K (comment i) i (fun c v => v = [] /\ rfc_comment c).
Proof. intros. apply sound_comment_d. lia. Qed.

(* ---- CFWS ---- *)
Definition fws_then_comment (t : bytes) : Prop := exists w v c, t = w ++ c /\ rfc_oFWS w v /\ rfc_comment c.
Lemma sound_fws_comment : forall K i, post K (fws_comment i) i (fun c _ => fws_then_comment c).
Proof.
  intros. unfold fws_comment. step (sound_ofws K). step (sound_comment K). destruct H0 as [-> H0].
  apply post_ok. rewrite app_nil_r. exists c. eauto.
Qed.
Lemma fws_then_comment_nonempty : forall t, fws_then_comment t -> t <> [].
Proof.
  intros t (w & v & c & -> & _ & H) E. apply app_eq_nil in E as [_ ->]. now apply (comment_nonempty []).
Qed.
Lemma comments_many : forall t c l, fws_then_comment t -> many_of (fun c (_ : bytes) => fws_then_comment c) c l -> rfc_comments (t ++ c).
Proof.
  intros t c l Ht H. revert t Ht. induction H as [|c a cs l Hc Hl IH]; intros t (w & v & x & -> & H1 & H2).
  - rewrite app_nil_r. econstructor; eauto.
  - rewrite <- app_assoc. eapply comments_more; eauto.
Qed.
Lemma sound_cfws : forall K i, post K (cfws i) i (fun c _ => rfc_CFWS c).
Proof.
  intros. unfold cfws. apply post_Forall_match. repeat apply Forall_cons; [| |apply Forall_nil].
  - unfold real_cfws. eapply post_bind; [apply post_map_err, (sound_fws_comment K)|].
    intros c r a _ H. cbn beta iota. eapply post_bind.
    { apply (post_many _ K _ (fun c _ => fws_then_comment c)); [intros; now apply fws_then_comment_nonempty|].
      intros. apply sound_fws_comment. }
    intros c' r' l _ Hl. cbn beta iota. step (sound_ofws K). apply post_ok. rewrite app_nil_r, app_assoc.
    eapply CFWS_comments; eauto. eapply comments_many; eauto.
  - eapply post_weaken; [apply sound_fws|]. intros c v H. eapply CFWS_fws; eauto.
Qed.
Lemma sound_ocfws : forall K i, post K (optional cfws i) i (fun c _ => rfc_oCFWS c).
Proof.
  intros. eapply post_weaken; [apply post_optional, sound_cfws|]. intros c [v|]; cbn.
  - now constructor.
  - intros ->. constructor.
Qed.
Lemma sound_skip_cfws : forall K i, rpost K (skip_cfws i) i rfc_oCFWS.
Proof.
  intros. unfold skip_cfws. pose proof (sound_cfws K i) as H. destruct (cfws i) as [[r v]|e|k]; cbn in *; auto.
  - destruct H as (c & -> & H). exists c. split; auto. now constructor.
  - exists []. split; auto. constructor.
Qed.

(* ---- atoms ---- *)
Lemma sound_atom : forall K i, post K (atom i) i rfc_atom.
Proof.
  intros. unfold atom. rstep (sound_skip_cfws K).
  eapply post_bind; [apply post_map_err, (sound_take_while1 K is_atext rfc_atext _ atext_spec atext_ascii)|].
  intros c' r' a _ [-> Ha]. cbn beta iota. rstep (sound_skip_cfws K). apply post_ok. rewrite app_nil_r. now constructor.
Qed.
Lemma sound_dot_atom_step : forall E K i, post K (dot_atom_step E i) i
  (fun c v => v = c /\ exists a, c = [46] ++ a /\ chars rfc_atext a /\ (f_compatibility_fixes E = true \/ a <> [])).
Proof.
  intros. unfold dot_atom_step. destruct (starts_with i (bs ".")) eqn:H; [|exact I].
  apply starts_with_spec in H as [r ->]. change 1%nat with (length (bs ".")). rewrite index_from_app. cbn [bind].
  assert (G : post K (let* (r0, a) := if f_compatibility_fixes E then take_while is_atext r else take_while1 is_atext r in Ok (r0, bs "." ++ a)) r
     (fun c v => v = bs "." ++ c /\ chars rfc_atext c /\ (f_compatibility_fixes E = true \/ c <> []))).
  { destruct (f_compatibility_fixes E).
    - step (sound_take_while K is_atext rfc_atext r atext_spec atext_ascii). destruct H as [-> H]. apply post_ok. rewrite app_nil_r. auto.
    - step (sound_take_while1 K is_atext rfc_atext r atext_spec atext_ascii). destruct H as [-> [? ?]]. apply post_ok. rewrite app_nil_r. auto. }
  revert G. match goal with |- post _ ?x _ _ -> post _ ?y _ _ => change y with x; destruct x as [[r' v]|e|k] end; cbn; auto.
  intros (c & -> & -> & H1 & H2). exists (46 :: c). split; auto. split; auto. exists c. auto.
Qed.
Lemma dot_tail_many : forall compat c l,
  many_of (fun c (v : bytes) => v = c /\ exists a, c = [46] ++ a /\ chars rfc_atext a /\ (compat = true \/ a <> [])) c l ->
  rfc_dot_tail compat c /\ concat l = c.
Proof.
  intros compat c l H. induction H as [|c a cs l (-> & x & -> & H1 & H2) Hl [IH1 IH2]].
  - split; auto. constructor.
  - split; [|cbn; now rewrite IH2]. rewrite <- app_assoc. now constructor.
Qed.
Lemma sound_dot_atom_text : forall E K i, post K (dot_atom_text E i) i
  (fun c v => v = c /\ rfc_dot_atom_text (f_compatibility_fixes E) c).
Proof.
  intros. unfold dot_atom_text. step (sound_take_while1 K is_atext rfc_atext i atext_spec atext_ascii). destruct H as [-> H].
  eapply post_bind.
  { apply (post_collect_many K (dot_atom_step E)); [|intros; apply sound_dot_atom_step].
    intros ? ? (-> & x & -> & _). discriminate. }
  intros c' r' v _ (l & -> & Hl). cbn beta iota. apply dot_tail_many in Hl as [Hl ->]. apply post_ok. rewrite app_nil_r.
  split; auto. now constructor.
Qed.
Lemma dot_atom_text_nonempty : forall b c, rfc_dot_atom_text b c -> c <> [].
Proof. intros b c H. inversion H as [a t [Ha _]]; subst. intros E. apply app_eq_nil in E. tauto. Qed.
Lemma sound_dot_atom : forall E K i, post K (dot_atom E i) i (rfc_dot_atom (f_compatibility_fixes E)).
Proof.
  intros. unfold dot_atom. rstep (sound_skip_cfws K). step (sound_dot_atom_text E K). destruct H0 as [-> H0].
  rstep (sound_skip_cfws K). apply post_ok. rewrite app_nil_r. now constructor.
Qed.

(* ---- quoted strings ---- *)
Definition qchunk (t v : bytes) : Prop := exists w x t' v', t = w ++ t' /\ v = x ++ v' /\ rfc_oFWS w x /\ t' <> [] /\
  ((chars1 rfc_qtext t' /\ v' = t') \/ (exists y, v' = [y] /\ rfc_quoted_pair t' y)).
Lemma sound_quoted_string_step : forall K i, post K (quoted_string_step i) i qchunk.
Proof.
  intros. unfold quoted_string_step.
  assert (F : post K (attempt (fws i) (fun '(r, s) => Ok (r, s)) (Ok (i, []))) i rfc_oFWS).
  { eapply post_attempt; [apply sound_fws| |].
    - intros c r a _ H. apply post_ok. rewrite app_nil_r. now constructor.
    - apply post_ok. constructor. }
  eapply post_bind; [exact F|]. intros w r x _ Hw. cbn beta iota.
  eapply post_attempt; [apply (sound_take_while1 K is_qtext rfc_qtext r qtext_spec qtext_ascii)| |].
  - intros c r' a _ [-> H]. apply post_ok. rewrite app_nil_r. pose proof H as [? ?]. exists w, x, c, c. auto 10.
  - eapply post_attempt; [apply sound_quoted_pair| |exact I].
    intros c r' a _ (y & -> & H). apply post_ok. rewrite app_nil_r. exists w, x, c, [y].
    assert (c <> []) by (inversion H; discriminate). eauto 10.
Qed.
Lemma qbody_qtext : forall a b v, Forall rfc_qtext a -> rfc_qbody b v -> rfc_qbody (a ++ b) (a ++ v).
Proof.
  intros a b v H Hb. induction H as [|x a Hx Ha IH]; auto.
  change ((x :: a) ++ b) with ([] ++ [x] ++ (a ++ b)). change ((x :: a) ++ v) with ([] ++ [x] ++ (a ++ v)).
  eapply qbody_cons; eauto; constructor. exact Hx.
Qed.
Lemma qbody_many : forall c l w v, many_of qchunk c l -> rfc_oFWS w v -> rfc_qbody (c ++ w) (concat l ++ v).
Proof.
  intros c l w v H Hw. induction H as [|c a cs l (w' & x & t & y & -> & -> & H1 & _ & H2) Hl IH].
  - cbn. now constructor.
  - cbn [concat]. rewrite <- !app_assoc. destruct H2 as [[[Hne H2] ->]|(z & -> & H2)].
    + destruct t as [|z t]; [congruence|]. inversion H2; subst.
      change ((z :: t) ++ cs ++ w) with ([z] ++ (t ++ cs ++ w)). change ((z :: t) ++ concat l ++ v) with ([z] ++ (t ++ concat l ++ v)).
      eapply qbody_cons; eauto; [now constructor|]. now apply qbody_qtext.
    + eapply qbody_cons; eauto. econstructor; eauto.
Qed.
Lemma sound_quoted_string : forall K i, post K (quoted_string i) i rfc_quoted_string.
Proof.
  intros. unfold quoted_string. rstep (sound_skip_cfws K).
  destruct (starts_with r [DQUOTE]) eqn:Hs; [|exact I]. apply starts_with_spec in Hs as [r1 ->].
  change 1%nat with (length [DQUOTE]). rewrite index_from_app. cbn [bind].
  (* work on r1 *)
  match goal with |- post K ?x _ ?Q =>
    assert (G : post K x r1 (fun c' b => Q ([DQUOTE] ++ c') b)) end.
  { eapply post_bind.
    { apply (post_collect_many K quoted_string_step qchunk); [|intros; apply sound_quoted_string_step].
      intros ? ? (? & ? & t & ? & -> & _ & _ & Ht & _) E. apply app_eq_nil in E. tauto. }
    intros b r2 o -> (l & -> & Hl). cbn beta iota.
    assert (F : post K (attempt (fws r2) (fun '(r, s) => Ok (r, concat l ++ s)) (Ok (r2, concat l))) r2
       (fun w v => exists x, v = concat l ++ x /\ rfc_oFWS w x)).
    { eapply post_attempt; [apply sound_fws| |].
      - intros c' r' a _ Ha. apply post_ok. rewrite app_nil_r. exists a. split; auto. now constructor.
      - apply post_ok. exists []. rewrite app_nil_r. split; auto. constructor. }
    eapply post_bind; [exact F|]. clear F. intros w r3 o _ (x & -> & Hw). cbn beta iota.
    destruct (starts_with r3 [DQUOTE]) eqn:Hs; [|exact I]. apply starts_with_spec in Hs as [r4 ->].
    change 1%nat with (length [DQUOTE]). rewrite index_from_app. cbn [bind].
    pose proof (sound_skip_cfws K r4) as S. destruct (skip_cfws r4) as [r5|e|k]; cbn [bind post rpost] in *; auto.
    destruct S as (c5 & -> & S). exists ([DQUOTE] ++ c5). split; auto.
    pose proof (qbody_many _ _ _ _ Hl Hw) as B.
    replace (c ++ [DQUOTE] ++ b ++ w ++ [DQUOTE] ++ c5) with (c ++ [34] ++ (b ++ w) ++ [34] ++ c5) by (rewrite <- !app_assoc; reflexivity).
    now constructor. }
  revert G. match goal with |- post _ ?x _ _ -> _ => destruct x as [[r' v]|e|k] end; cbn; auto.
  intros (c' & -> & H'). exists (34 :: c'). auto.
Qed.

(* ---- words ---- *)
Lemma sound_word : forall K i, post K (word i) i rfc_word.
Proof.
  intros. unfold word. apply post_Forall_match. repeat apply Forall_cons; [| |apply Forall_nil].
  - eapply post_weaken; [apply sound_atom|]. now constructor.
  - eapply post_weaken; [apply sound_quoted_string|]. now constructor.
Qed.
Lemma word_nonempty : forall c v, rfc_word c v -> c <> [].
Proof.
  intros c v [c' v' H|c' v' H] E; subst; inversion H; subst.
  - apply app_eq_nil in H0 as [_ H0]. apply app_eq_nil in H0 as [-> _]. destruct H2. congruence.
  - apply app_eq_nil in H0 as [_ H0]. discriminate.
Qed.

(* ---- unstructured text ---- *)
Definition uchunk (t v : bytes) : Prop := exists w x c, t = w ++ c /\ v = x ++ c /\ rfc_oFWS w x /\ chars1 rfc_VCHAR c.
Lemma sound_oblank : forall K i, post K (attempt (fws i) (fun ra => Ok ra) (Ok (i, []))) i rfc_oFWS.
Proof.
  intros. eapply post_attempt; [apply sound_fws| |].
  - intros c r a _ H. apply post_ok. rewrite app_nil_r. now constructor.
  - apply post_ok. constructor.
Qed.
Lemma sound_unstructured_step : forall K i, post K (unstructured_step i) i uchunk.
Proof.
  intros. unfold unstructured_step, collect_pair. step (sound_oblank K).
  step (sound_take_while1 K is_vchar rfc_VCHAR r vchar_spec vchar_ascii). destruct H0 as [-> H0].
  apply post_ok. rewrite app_nil_r. exists c, a, c0. auto.
Qed.
Lemma utext_vchars : forall a b v, Forall rfc_VCHAR a -> rfc_utext b v -> rfc_utext (a ++ b) (a ++ v).
Proof.
  intros a b v H Hb. induction H as [|x a Hx Ha IH]; auto.
  change ((x :: a) ++ b) with ([] ++ [x] ++ (a ++ b)). change ((x :: a) ++ v) with ([] ++ [x] ++ (a ++ v)).
  apply utext_cons; auto. constructor.
Qed.
Lemma utext_many : forall c l, many_of uchunk c l -> rfc_utext c (concat l).
Proof.
  intros c l H. induction H as [|c a cs l (w & x & t & -> & -> & H1 & Hne & H2) Hl IH].
  - constructor.
  - cbn [concat]. rewrite <- !app_assoc. destruct t as [|z t]; [congruence|]. inversion H2; subst.
    change ((z :: t) ++ cs) with ([z] ++ (t ++ cs)). change ((z :: t) ++ concat l) with ([z] ++ (t ++ concat l)).
    apply utext_cons; auto. now apply utext_vchars.
Qed.
Lemma sound_blanks : forall K i, post K (ignore_many (take_while1 is_wsp) i) i (fun c _ => chars rfc_WSP c).
Proof.
  intros. eapply post_weaken.
  - apply (post_ignore_many _ K (take_while1 is_wsp) (fun c v => v = c /\ chars1 rfc_WSP c)).
    + intros c a [_ [H _]]. exact H.
    + intros. apply (sound_take_while1 K is_wsp rfc_WSP j wsp_spec wsp_ascii).
  - intros c _ (l & H). induction H as [|c a cs l [-> [_ H]] Hl IH]; [constructor|]. apply Forall_app. auto.
Qed.
Lemma sound_unstructured : forall K i, post K (unstructured i) i rfc_unstructured.
Proof.
  intros. unfold unstructured. eapply post_bind.
  { apply (post_collect_many K unstructured_step uchunk); [|intros; apply sound_unstructured_step].
    intros ? ? (? & ? & t & -> & _ & _ & Ht & _) E. apply app_eq_nil in E. tauto. }
  intros c r v _ (l & -> & Hl). cbn beta iota. step (sound_blanks K). apply post_ok. rewrite app_nil_r.
  constructor; auto. now apply utext_many.
Qed.

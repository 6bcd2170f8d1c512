(* Completeness, part 1: white space, comments, atoms, quoted strings: on a text of the
   grammar followed by something that cannot continue it, the parsers succeed, consume
   exactly that text and return its value. *)
From Coq Require Import Lia ZifyBool ZifyNat ZifyN.
From Verif Require Import Base Utf8 CharSets Combinators Whitespace QuotedString Common Rfc5322 Post SoundBase Steps.
Local Open Scope N_scope.

(* ---- what may follow ---- *)
(* r does not start with a character of the class *)
Definition ends (f : byte -> bool) (r : bytes) : Prop := match r with [] => True | c :: _ => f c = false end.
(* r does not start with a line fold *)
Definition no_fold (r : bytes) : Prop := match r with 13 :: 10 :: t => ends is_wsp t | _ => True end.
Definition no_crlf (r : bytes) : Prop := starts_with r CRLF = false.
(* r cannot continue comments and folding white space *)
Definition stop (r : bytes) : Prop := ends (fun c => is_wsp c || (c =? 40)) r /\ no_fold r.
(* where the blanks at the end of a text start: right after a line end, or not *)
Inductive tail_state := InText | NewLine | OpenBlanks.
Definition tail_step (s : tail_state) (c : byte) : tail_state :=
  if is_wsp c then match s with InText => OpenBlanks | _ => s end else if c =? 10 then NewLine else InText.
(* a CRLF that is not a fold may follow c: the blanks at the end of c, if any, start a line *)
Definition settled (c : bytes) : Prop := fold_left tail_step c InText <> OpenBlanks.
Definition follows (c r : bytes) : Prop := stop r /\ (no_crlf r \/ settled c).

Lemma ends_app : forall f a r, ends f a -> (a = [] -> ends f r) -> ends f (a ++ r).
Proof. intros f [|c a] r Ha Hr; cbn; auto. Qed.
Lemma ends_head : forall f c r, f c = false -> ends f (c :: r).
Proof. auto. Qed.
Lemma no_fold_head : forall c r, c <> 13 -> no_fold (c :: r).
Proof. intros c r H. destruct c as [|p]; [exact I|]. do 4 (destruct p as [p|p|]; try exact I). congruence. Qed.
Lemma no_fold_spec : forall r, no_fold r <-> (forall t, r = CRLF ++ t -> ends is_wsp t).
Proof.
  intros r. split.
  - intros H t ->. exact H.
  - intros H. destruct r as [|a [|b r]]; [exact I| |].
    + destruct (N.eq_dec a 13) as [->|]; [exact I|now apply no_fold_head].
    + destruct (N.eq_dec a 13) as [->|]; [|now apply no_fold_head]. destruct (N.eq_dec b 10) as [->|Hb]; [now apply H|].
      cbn. destruct b as [|p]; [exact I|]. do 4 (destruct p as [p|p|]; try exact I). congruence.
Qed.
Lemma stop_head : forall c r, is_wsp c = false -> c <> 40 -> c <> 13 -> stop (c :: r).
Proof. intros c r H1 H2 H3. split; [cbn; rewrite H1; lia|now apply no_fold_head]. Qed.
Lemma stop_nil : stop []. Proof. split; exact I. Qed.
Lemma stop_crlf : forall r, ends is_wsp r -> stop (CRLF ++ r).
Proof. intros r H. split; [reflexivity|exact H]. Qed.
Lemma stop_wsp : forall r, stop r -> ends is_wsp r.
Proof. intros [|c r] [H _]; cbn in *; auto. lia. Qed.
Lemma no_crlf_head : forall c r, c <> 13 -> no_crlf (c :: r).
Proof. intros c r H. unfold no_crlf. destruct (starts_with (c :: r) CRLF) eqn:X; auto. apply starts_with_spec in X as [t X]. injection X as -> _. congruence. Qed.
Lemma no_crlf_nil : no_crlf []. Proof. reflexivity. Qed.
Lemma follows_head : forall x c r, is_wsp c = false -> c <> 40 -> c <> 13 -> follows x (c :: r).
Proof. intros x c r H1 H2 H3. split; [now apply stop_head|left; now apply no_crlf_head]. Qed.
Lemma follows_nil : forall x, follows x [].
Proof. intros. split; [exact stop_nil|left; reflexivity]. Qed.
Lemma follows_crlf : forall x r, settled x -> ends is_wsp r -> follows x (CRLF ++ r).
Proof. intros x r H Hr. split; [now apply stop_crlf|now right]. Qed.
Lemma follows_stop : forall x r, follows x r -> stop r. Proof. now intros x r [H _]. Qed.
Lemma follows_empty : forall r, stop r -> follows [] r.
Proof. intros r H. split; auto. right. discriminate. Qed.

Lemma tail_blanks_from : forall w s, chars rfc_WSP w -> s <> InText -> fold_left tail_step w s = s.
Proof.
  intros w. induction w as [|c w IH]; intros s H Hs; auto. inversion H; subst. cbn [fold_left].
  replace (tail_step s c) with s; [now apply IH|]. unfold tail_step. apply wsp_spec in H2. rewrite H2. destruct s; congruence.
Qed.
Lemma tail_blanks : forall w, chars1 rfc_WSP w -> fold_left tail_step w InText = OpenBlanks.
Proof.
  intros [|c w] [H1 H2]; [congruence|]. inversion H2; subst. cbn [fold_left]. replace (tail_step InText c) with OpenBlanks.
  - apply tail_blanks_from; [auto|discriminate].
  - unfold tail_step. apply wsp_spec in H3. now rewrite H3.
Qed.
Lemma settled_last : forall c d, is_wsp d = false -> settled (c ++ [d]).
Proof. intros c d H. unfold settled. rewrite fold_left_app. cbn. unfold tail_step at 1. rewrite H. destruct (d =? 10); discriminate. Qed.
Lemma settled_fold : forall w1 w2, chars rfc_WSP w2 -> settled (w1 ++ CRLF ++ w2).
Proof. intros w1 w2 H. unfold settled. rewrite !fold_left_app. cbn [CRLF fold_left]. cbn. rewrite tail_blanks_from; [discriminate|auto|discriminate]. Qed.
Lemma settled_app : forall a d b, is_wsp d = false -> d <> 10 -> settled ((a ++ [d]) ++ b) <-> settled b.
Proof.
  intros a d b H1 H2. unfold settled. rewrite fold_left_app. replace (fold_left tail_step (a ++ [d]) InText) with InText; [tauto|].
  rewrite fold_left_app. cbn. unfold tail_step. rewrite H1. destruct (d =? 10) eqn:X; [lia|auto].
Qed.

(* ---- take_while ---- *)
Lemma span_app : forall f a r, Forall (fun c => f c = true) a -> ends f r -> span f (a ++ r) = (a, r).
Proof.
  intros f a r H Hr. induction H as [|c a Hc Ha IH]; cbn.
  - destruct r as [|c r]; cbn; auto. cbn in Hr. now rewrite Hr.
  - rewrite Hc. fold (span f (a ++ r)). now rewrite IH.
Qed.
Lemma take_while_app : forall (f : byte -> bool) (P : byte -> Prop) a r, (forall c, f c = true <-> P c) -> (forall c, f c = true -> ascii_byte c) ->
  chars P a -> ends f r -> take_while f (a ++ r) = Ok (r, a).
Proof.
  intros f P a r H Ha HP Hr. assert (F : Forall (fun c => f c = true) a) by now apply (Forall_spec f P).
  unfold take_while. rewrite span_app by auto. rewrite str_unchecked_ascii; [reflexivity|]. eapply Forall_impl; [|exact F]. auto.
Qed.
Lemma take_while1_app : forall (f : byte -> bool) (P : byte -> Prop) a r, (forall c, f c = true <-> P c) -> (forall c, f c = true -> ascii_byte c) ->
  chars1 P a -> ends f r -> take_while1 f (a ++ r) = Ok (r, a).
Proof.
  intros f P a r H Ha [Hn HP] Hr. assert (F : Forall (fun c => f c = true) a) by now apply (Forall_spec f P).
  destruct a as [|c a]; [congruence|]. unfold take_while1. cbn [app]. inversion F; subst. rewrite H2. cbn [negb].
  change (c :: a ++ r) with ((c :: a) ++ r). rewrite span_app by auto.
  rewrite str_unchecked_ascii; [reflexivity|]. eapply Forall_impl; [|exact F]. auto.
Qed.
Lemma take_while1_err : forall f r, ends f r -> exists e, take_while1 f r = Err e.
Proof. intros f [|c r] H; cbn; eauto. cbn in H. rewrite H. cbn. eauto. Qed.
Lemma tag_err : forall e m i, starts_with i e = false -> tag e m i = Err (Explicit m).
Proof. intros e m i H. unfold tag. now rewrite H. Qed.
Lemma tag_head_err : forall x c m i, ends (fun y => x =? y) i -> tag (x :: c) m i = Err (Explicit m).
Proof. intros x c m i H. apply tag_err. destruct i as [|y i]; cbn in *; auto. now rewrite H. Qed.

(* ---- folding white space ---- *)
Lemma wsp_not_crlf : forall w r, chars1 rfc_WSP w -> no_crlf (w ++ r).
Proof. intros [|c w] r [H1 H2]; [congruence|]. inversion H2; subst. apply no_crlf_head. unfold rfc_WSP in *. lia. Qed.
Lemma ends_wsp_crlf : forall r, ends is_wsp (CRLF ++ r). Proof. reflexivity. Qed.
Lemma wsp_ends : forall (f : byte -> bool) w r, chars1 rfc_WSP w -> f 32 = false -> f 9 = false -> ends f (w ++ r).
Proof. intros f [|c w] r [H1 H2] F1 F2; [congruence|]. inversion H2; subst. cbn. unfold rfc_WSP in *. destruct H3; now subst. Qed.
Lemma FWS_ends : forall (f : byte -> bool) w v r, rfc_FWS w v -> f 32 = false -> f 9 = false -> f 13 = false -> ends f (w ++ r).
Proof.
  intros f w v r [w' H|w1 w2 H1 H2] F1 F2 F3; [now apply wsp_ends|]. destruct w1 as [|c w1]; [exact F3|].
  rewrite <- app_assoc. now apply wsp_ends.
Qed.
Lemma oFWS_ends : forall (f : byte -> bool) w v r, rfc_oFWS w v -> f 32 = false -> f 9 = false -> f 13 = false -> ends f r -> ends f (w ++ r).
Proof. intros f w v r [|] F1 F2 F3 Hr; auto. eapply FWS_ends; eauto. Qed.

Lemma fws_forward : forall w v r, rfc_FWS w v -> ends is_wsp r -> no_crlf r \/ settled w -> fws (w ++ r) = Ok (r, v).
Proof.
  intros w v r H Hr Hc. unfold fws, optional. destruct H as [w H|w1 w2 H1 H2].
  - assert (N : no_crlf r).
    { destruct Hc as [|Hc]; auto. exfalso. apply Hc. now apply tail_blanks. }
    unfold pair_p at 1. rewrite (take_while_app is_wsp rfc_WSP w r wsp_spec wsp_ascii (proj2 H) Hr). cbn [bind].
    rewrite tag_err by auto. cbn [bind attempt].
    rewrite (take_while1_app is_wsp rfc_WSP w r wsp_spec wsp_ascii H Hr). reflexivity.
  - unfold pair_p at 1. rewrite <- !app_assoc. rewrite (take_while_app is_wsp rfc_WSP w1 _ wsp_spec wsp_ascii H1 (ends_wsp_crlf _)). cbn [bind].
    rewrite tag_app. cbn [bind attempt].
    rewrite (take_while1_app is_wsp rfc_WSP w2 r wsp_spec wsp_ascii H2 Hr). reflexivity.
Qed.
Lemma fws_none : forall r, ends is_wsp r -> no_fold r -> exists e, fws r = Err e.
Proof.
  intros r Hr Hf. unfold fws, optional, pair_p.
  pose proof (take_while_app is_wsp rfc_WSP [] r wsp_spec wsp_ascii ltac:(constructor) Hr) as T. cbn [app] in T. rewrite T. cbn [bind].
  destruct (starts_with r CRLF) eqn:C.
  - apply starts_with_spec in C as [t ->]. rewrite tag_app. cbn [bind attempt]. destruct (take_while1_err is_wsp t) as [e ->]; [exact Hf|]. cbn [bind]. eauto.
  - rewrite tag_err by auto. cbn [bind attempt]. destruct (take_while1_err is_wsp r Hr) as [e ->]. cbn [bind]. eauto.
Qed.
(* blanks before a CRLF that is not a fold *)
Lemma fws_blank_crlf : forall w r, chars rfc_WSP w -> ends is_wsp r -> exists e, fws (w ++ CRLF ++ r) = Err e.
Proof.
  intros w r Hw Hr. unfold fws, optional, pair_p. rewrite (take_while_app is_wsp rfc_WSP w _ wsp_spec wsp_ascii Hw (ends_wsp_crlf _)). cbn [bind].
  rewrite tag_app. cbn [bind attempt]. destruct (take_while1_err is_wsp r Hr) as [e ->]. cbn [bind]. eauto.
Qed.
Definition some_if (c v : bytes) : option bytes := match c with [] => None | _ => Some v end.
Lemma ofws_forward : forall w v r, rfc_oFWS w v -> ends is_wsp r -> no_fold r -> no_crlf r \/ settled w -> optional fws (w ++ r) = Ok (r, some_if w v).
Proof.
  intros w v r [|c x H] Hr Hf Hc; unfold optional.
  - cbn [app]. destruct (fws_none r Hr Hf) as [e ->]. reflexivity.
  - rewrite (fws_forward c x r) by auto. cbn. destruct c; [|reflexivity]. now apply FWS_nonempty in H.
Qed.
Lemma some_if_value : forall w v, rfc_oFWS w v -> match some_if w v with Some x => x | None => [] end = v.
Proof. intros w v [|c x H]; auto. destruct c; auto. now apply FWS_nonempty in H. Qed.
(* in front of a character that is neither blank nor CR *)
Lemma ofws_char : forall w v c r, rfc_oFWS w v -> is_wsp c = false -> c <> 13 -> optional fws (w ++ c :: r) = Ok (c :: r, some_if w v).
Proof. intros. apply ofws_forward; auto. now apply no_fold_head. left. now apply no_crlf_head. Qed.
Lemma fws_or_char : forall w v c r, rfc_oFWS w v -> is_wsp c = false -> c <> 13 ->
  attempt (fws (w ++ c :: r)) (fun ra => Ok ra) (Ok (w ++ c :: r, [])) = Ok (c :: r, v).
Proof.
  intros w v c r [|w' v' H] Hc1 Hc2.
  - cbn [app]. destruct (fws_none (c :: r)) as [e ->]; [exact Hc1|now apply no_fold_head|reflexivity].
  - rewrite (fws_forward w' v'); [reflexivity|auto|exact Hc1|left; now apply no_crlf_head].
Qed.

(* ---- quoted pairs ---- *)
Lemma quoted_pair_forward : forall t c r, rfc_quoted_pair t c -> quoted_pair (t ++ r) = Ok (r, [c]).
Proof.
  intros t c r [c' H]. unfold quoted_pair. cbn [app]. change (92 :: c' :: r) with ([92] ++ (c' :: r)). unfold BACKSLASH. rewrite tag_app. cbn [bind].
  assert (Hv : is_vchar c' || is_wsp c' = true) by (apply orb_true_iff; rewrite vchar_spec, wsp_spec; auto). rewrite Hv.
  change (c' :: r) with ([c'] ++ r). change 1%nat with (length [c']). rewrite unchecked_from_app, unchecked_to_app. cbn [bind].
  rewrite str_unchecked_ascii by (repeat constructor; destruct H; chars_lia). reflexivity.
Qed.
Lemma quoted_pair_err : forall r, ends (fun y => 92 =? y) r -> exists e, quoted_pair r = Err e.
Proof. intros r H. unfold quoted_pair. unfold BACKSLASH. rewrite tag_head_err by auto. cbn. eauto. Qed.

(* ---- sequences of characters, taken in runs, and other items ---- *)
Section Runs.
Context {A : Type}.
Variable f : byte -> bool.
Variable P : byte -> Prop.
Variable Q : bytes -> bytes -> Prop.
Hypothesis Hq : forall q y, Q q y -> q <> [] /\ ends f q.
Hypothesis Hb : f 32 = false /\ f 9 = false /\ f 13 = false.
(* single characters *)
Inductive items : bytes -> bytes -> Prop :=
| items_nil : items [] []
| items_char : forall w v c t x, rfc_oFWS w v -> P c -> items t x -> items (w ++ [c] ++ t) (v ++ [c] ++ x)
| items_item : forall w v q y t x, rfc_oFWS w v -> Q q y -> items t x -> items (w ++ q ++ t) (v ++ y ++ x).
(* maximal runs *)
Inductive runs : bytes -> list (bytes * bytes) -> Prop :=
| runs_nil : runs [] []
| runs_run : forall w v a t l, rfc_oFWS w v -> chars1 P a -> runs t l -> ends f t -> runs (w ++ a ++ t) ((v, a) :: l)
| runs_item : forall w v q y t l, rfc_oFWS w v -> Q q y -> runs t l -> runs (w ++ q ++ t) ((v, y) :: l).
Definition runs_value (l : list (bytes * bytes)) : bytes := concat (map (fun va => fst va ++ snd va) l).
Lemma runs_of_items : forall c x, items c x -> exists l, runs c l /\ x = runs_value l.
Proof.
  destruct Hb as (B1 & B2 & B3).
  intros c x H. induction H as [|w v c t x Hw Hc Ht (l & IH & ->)|w v q y t x Hw Hy Ht (l & IH & ->)].
  - exists []. split; [constructor|reflexivity].
  - assert (C1 : chars1 P [c]) by (split; [discriminate|now constructor]).
    destruct IH as [|w' v' a t' l' Hw' Ha Ht' He|w' v' q' y' t' l' Hw' Hy' Ht'].
    + exists [(v, [c])]. split; [|unfold runs_value; cbn; now rewrite <- !app_assoc]. apply runs_run; auto; [constructor|exact I].
    + destruct Hw' as [|w' v' Hw'].
      * exists ((v, [c] ++ a) :: l'). split; [|unfold runs_value; cbn; now rewrite <- !app_assoc].
        change ([c] ++ [] ++ a ++ t') with (([c] ++ a) ++ t'). apply runs_run; auto. destruct Ha. split; [discriminate|now constructor].
      * exists ((v, [c]) :: (v', a) :: l'). split; [|unfold runs_value; cbn; now rewrite <- !app_assoc].
        apply runs_run; auto; [apply runs_run; auto; now constructor|]. eapply FWS_ends; eauto.
    + exists ((v, [c]) :: (v', y') :: l'). split; [|unfold runs_value; cbn; now rewrite <- !app_assoc].
      apply runs_run; auto; [apply runs_item; auto|]. destruct (Hq _ _ Hy') as [Hn He].
      eapply oFWS_ends; eauto. apply ends_app; [exact He|congruence].
  - exists ((v, y) :: l). split; [now apply runs_item|]. unfold runs_value. cbn. now rewrite <- !app_assoc.
Qed.
Lemma runs_steps : forall (R : A -> bytes -> bytes -> Prop) (p : parser A) r,
  (forall w v a t, rfc_oFWS w v -> chars1 P a -> ends f t -> exists x, p (w ++ a ++ t) = Ok (t, x) /\ R x v a) ->
  (forall w v q y t, rfc_oFWS w v -> Q q y -> exists x, p (w ++ q ++ t) = Ok (t, x) /\ R x v y) ->
  (exists e, p r = Err e) -> ends f r ->
  forall c l, runs c l -> exists l', steps p (c ++ r) l' r /\ Forall2 (fun x va => R x (fst va) (snd va)) l' l.
Proof.
  intros R p r P1 P2 [e P3] Hr c l H. induction H as [|w v a t l Hw Ha Ht (l' & IH & IV) He|w v q y t l Hw Hy Ht (l' & IH & IV)].
  - exists []. split; [eapply steps_stop; eauto|constructor].
  - destruct (P1 w v a (t ++ r)) as (x & Px & Rx); [auto|auto|now apply ends_app|]. exists (x :: l'). split; [|constructor; auto].
    rewrite <- !app_assoc. eapply steps_more; [exact Px| |exact IH].
    rewrite !app_length. destruct Ha as [Hn _]. destruct a; [congruence|cbn [length]; lia].
  - destruct (P2 w v q y (t ++ r)) as (x & Px & Rx); [auto|auto|]. exists (x :: l'). split; [|constructor; auto].
    rewrite <- !app_assoc. eapply steps_more; [exact Px| |exact IH].
    rewrite !app_length. destruct (Hq _ _ Hy) as [Hn _]. destruct q; [congruence|cbn [length]; lia].
Qed.
End Runs.
Lemma runs_value_concat : forall l' l, Forall2 (fun (x : bytes) va => x = fst va ++ snd va) l' l -> concat l' = runs_value l.
Proof. intros l' l H. induction H as [|x va l' l -> H IH]; auto. unfold runs_value in *. cbn. now rewrite IH. Qed.

(* ---- comments ---- *)
Definition citem (d : nat) (q y : bytes) : Prop :=
  y = [] /\ ((exists c, rfc_quoted_pair q c) \/ (exists b, q = [40] ++ b) /\ forall r, comment_d d (q ++ r) = Ok (r, [])).
Scheme comment_mut := Minimality for rfc_comment Sort Prop
with cbody_mut := Minimality for rfc_cbody Sort Prop
with ccontent_mut := Minimality for rfc_ccontent Sort Prop.
Combined Scheme comment_all from comment_mut, cbody_mut, ccontent_mut.
Lemma citem_head : forall d q y, citem d q y -> q <> [] /\ ends is_ctext q /\ ends (fun c => is_wsp c || (c =? 13)) q.
Proof. intros d q y [-> [[c H]|[[b ->] H]]]; [destruct H|]; repeat split; discriminate. Qed.
Lemma ends_or : forall f g r, ends (fun c => f c || g c) r <-> ends f r /\ ends g r.
Proof. intros f g [|c r]; cbn; [tauto|]. apply orb_false_iff. Qed.
(* in front of something that is neither blank nor a line end *)
Lemma ends_inner : forall r, ends (fun c => is_wsp c || (c =? 13)) r -> ends is_wsp r /\ no_fold r /\ no_crlf r.
Proof.
  intros [|c r] H; cbn [ends] in *; [repeat split|]. apply orb_false_iff in H as [H1 H2]. apply N.eqb_neq in H2.
  repeat split; [auto|now apply no_fold_head|now apply no_crlf_head].
Qed.
Lemma ofws_inner : forall w v r, rfc_oFWS w v -> ends (fun c => is_wsp c || (c =? 13)) r -> optional fws (w ++ r) = Ok (r, some_if w v).
Proof. intros w v r H Hr. apply ends_inner in Hr as (H1 & H2 & H3). apply ofws_forward; auto. Qed.
Lemma fws_or_inner : forall w v r, rfc_oFWS w v -> ends (fun c => is_wsp c || (c =? 13)) r ->
  attempt (fws (w ++ r)) (fun ra => Ok ra) (Ok (w ++ r, [])) = Ok (r, v).
Proof.
  intros w v r H Hr. apply ends_inner in Hr as (H1 & H2 & H3). destruct H as [|w v H].
  - cbn [app]. destruct (fws_none r) as [e ->]; auto.
  - rewrite (fws_forward w v); auto.
Qed.
Lemma chars1_ends : forall (f : byte -> bool) (P : byte -> Prop) a r, (forall c, P c -> f c = false) -> chars1 P a -> ends f (a ++ r).
Proof. intros f P [|c a] r H [H1 H2]; [congruence|]. inversion H2; subst. cbn. auto. Qed.
Lemma ctext_inner : forall c, rfc_ctext c -> is_wsp c || (c =? 13) = false.
Proof. intros c H. destruct (is_wsp c) eqn:X; [apply wsp_spec in X; chars_lia|]. chars_lia. Qed.

Lemma comments_forward :
  (forall c, rfc_comment c -> forall d r, (length c < d)%nat -> comment_d d (c ++ r) = Ok (r, [])) /\
  (forall b, rfc_cbody b -> forall d, (length b < d)%nat -> exists b' x w v, b = b' ++ w /\ items rfc_ctext (citem d) b' x /\ rfc_oFWS w v) /\
  (forall c, rfc_ccontent c -> forall d, (length c < d)%nat -> (exists x, c = [x] /\ rfc_ctext x) \/ citem d c []).
Proof.
  apply comment_all.
  - intros b Hb IH [|d] r L; [lia|]. rewrite !app_length in L. cbn [length] in L.
    destruct (IH d) as (b' & x & w & v & -> & Hi & Hw); [lia|].
    assert (D : exists d', d = S d') by (destruct d; [lia|eauto]). destruct D as [d' ->].
    change (comment_d (S (S d')) (([40] ++ (b' ++ w) ++ [41]) ++ r)) with
      (let ccontent := match_parsers [take_while1 is_ctext; quoted_pair; comment_d (S d')] in
       let* (i, _) := tag [40] "TAG ERROR: A comment must start with a `(`." (([40] ++ (b' ++ w) ++ [41]) ++ r) in
       let* (i, _) := ignore_many (pair_p (optional fws) ccontent) i in
       let* (i, _) := optional fws i in
       let* (i, _) := tag [41] "TAG ERROR: A comment must end with a `)`." i in
       Ok (i, @nil byte)).
    cbv zeta. rewrite <- !app_assoc. rewrite tag_app. cbn [bind].
    assert (W : optional fws (w ++ [41] ++ r) = Ok ([41] ++ r, some_if w v)) by (apply ofws_inner; [auto|reflexivity]).
    assert (CH : forall q y, citem (S d') q y -> q <> [] /\ ends is_ctext q) by (intros q y Hq; apply citem_head in Hq; tauto).
    destruct (runs_of_items is_ctext rfc_ctext (citem (S d'))) with (c := b') (x := x) as (l & Hl & _); [exact CH|now repeat split|exact Hi|].
    destruct (runs_steps (A := option bytes * bytes) is_ctext rfc_ctext (citem (S d'))) with
      (R := fun (_ : option bytes * bytes) (_ _ : bytes) => True) (p := pair_p (optional fws) (match_parsers [take_while1 is_ctext; quoted_pair; comment_d (S d')]))
      (r := w ++ [41] ++ r) (c := b') (l := l) as (l' & Hs & _); [exact CH|now repeat split| | | | |exact Hl|].
    { intros w0 v0 a t H0 Ha Ht. eexists. split; [|exact I]. unfold pair_p. rewrite (ofws_inner w0 v0); [|auto|].
      - cbn [bind match_parsers]. rewrite (take_while1_app is_ctext rfc_ctext a t ctext_spec ctext_ascii Ha Ht). reflexivity.
      - eapply chars1_ends; [exact ctext_inner|exact Ha]. }
    { intros w0 v0 q y t H0 Hq. pose proof (citem_head _ _ _ Hq) as (Q1 & Q2 & Q3).
      unfold pair_p. rewrite (ofws_inner w0 v0); [|auto|now apply ends_app].
      cbn [bind match_parsers]. destruct (take_while1_err is_ctext (q ++ t)) as [e ->]; [now apply ends_app|]. cbn [attempt].
      destruct Hq as [_ [[c Hc]|[[b ->] Hc]]].
      - rewrite (quoted_pair_forward q c) by auto. cbn. eauto.
      - destruct (quoted_pair_err (([40] ++ b) ++ t)) as [e' ->]; [reflexivity|]. cbn [attempt]. rewrite Hc. cbn. eauto. }
    { unfold pair_p. rewrite W. eexists. reflexivity. }
    { eapply oFWS_ends; eauto; reflexivity. }
    rewrite (ignore_many_steps _ _ _ _ _ Hs). cbn [bind]. rewrite W. cbn [bind]. rewrite tag_app. reflexivity.
  - intros w v Hw d L. exists [], [], w, v. repeat split; auto. constructor.
  - intros w v c b Hw Hc IHc Hb IHb d L. rewrite !app_length in L.
    destruct (IHb d) as (b' & x & w' & v' & -> & Hi & Hw'); [lia|]. destruct (IHc d) as [(y & -> & Hy)|Hy]; [lia| |].
    + exists (w ++ [y] ++ b'), (v ++ [y] ++ x), w', v'. rewrite <- !app_assoc. repeat split; auto. now apply items_char.
    + exists (w ++ c ++ b'), (v ++ [] ++ x), w', v'. rewrite <- !app_assoc. repeat split; auto. now apply items_item.
  - intros c H d L. left. eauto.
  - intros t c H d L. right. split; eauto.
  - intros t H IH d L. right. split; auto. right. split; [destruct H; eauto|]. intros r. apply IH. exact L.
Qed.
Lemma comment_complete : forall c r, rfc_comment c -> comment (c ++ r) = Ok (r, []).
Proof. intros c r H. unfold comment. apply (proj1 comments_forward); auto. rewrite app_length. lia. Qed.
Lemma comment_err : forall r, ends (fun c => 40 =? c) r -> exists e, comment r = Err e.
Proof. intros r H. unfold comment. cbn [comment_d]. change (bs "(") with [40]. rewrite tag_head_err by auto. cbn. eauto. Qed.

(* ---- comments and folding white space ---- *)
Lemma comment_head : forall c, rfc_comment c -> exists b, c = 40 :: b.
Proof. intros c [b H]. eexists. reflexivity. Qed.
Lemma comment_last : forall c, rfc_comment c -> exists b, c = b ++ [41].
Proof. intros c [b H]. exists ([40] ++ b). now rewrite <- app_assoc. Qed.
Lemma comment_inner : forall c r, rfc_comment c -> ends (fun c => is_wsp c || (c =? 13)) (c ++ r).
Proof. intros c r H. apply comment_head in H as [b ->]. reflexivity. Qed.
Lemma stop_comment : forall r, stop r -> ends (fun c => 40 =? c) r.
Proof. intros [|c r] [H _]; [exact I|]. cbn [ends] in *. apply orb_false_iff in H as [_ H]. now rewrite N.eqb_sym. Qed.
Lemma fws_comment_forward : forall w v c r, rfc_oFWS w v -> rfc_comment c -> fws_comment (w ++ c ++ r) = Ok (r, match some_if w v with Some s => s | None => [] end).
Proof.
  intros w v c r Hw Hc. unfold fws_comment. rewrite (ofws_inner w v); [|auto|now apply comment_inner]. cbn [bind].
  rewrite comment_complete by auto. reflexivity.
Qed.
(* [FWS] then the end *)
Lemma fws_comment_none : forall w v r, rfc_oFWS w v -> follows w r -> exists e, fws_comment (w ++ r) = Err e.
Proof.
  intros w v r Hw [Hs Hc]. unfold fws_comment. rewrite (ofws_forward w v) by (first [assumption|now apply stop_wsp|apply Hs]). cbn [bind].
  destruct (comment_err r) as [e ->]; [now apply stop_comment|]. cbn. eauto.
Qed.
Lemma comments_steps : forall t, rfc_comments t -> forall w v r, rfc_oFWS w v -> follows w r ->
  exists l, l <> [] /\ steps fws_comment (t ++ w ++ r) l (w ++ r).
Proof.
  intros t H w v r Hw Hf. destruct (fws_comment_none w v r Hw Hf) as [e He].
  induction H as [w1 v1 c H1 Hc|w1 v1 c t H1 Hc Ht (l & IHn & IH)].
  - eexists [_]. split; [discriminate|]. rewrite <- app_assoc. eapply steps_more; [eapply fws_comment_forward; eassumption| |eapply steps_stop; eauto].
    apply comment_head in Hc as [b ->]. rewrite !app_length. cbn [length]. lia.
  - eexists (_ :: l). split; [discriminate|]. rewrite <- !app_assoc. eapply steps_more; [eapply fws_comment_forward; eassumption| |exact IH].
    apply comment_head in Hc as [b ->]. rewrite !app_length. cbn [length]. lia.
Qed.
Lemma comments_last : forall t, rfc_comments t -> exists b, t = b ++ [41].
Proof.
  intros t H. induction H as [w v c H1 Hc|w v c t H1 Hc Ht [b ->]].
  - apply comment_last in Hc as [b ->]. exists (w ++ b). now rewrite app_assoc.
  - exists (w ++ c ++ b). now rewrite <- !app_assoc.
Qed.
Lemma cfws_forward : forall c r, rfc_CFWS c -> follows c r -> exists v, cfws (c ++ r) = Ok (r, v).
Proof.
  intros c r H Hf. unfold cfws. cbn [match_parsers]. destruct H as [t w v Ht Hw|w v Hw].
  - assert (Fw : follows w r).
    { destruct Hf as [H1 H2]. split; auto. destruct H2 as [H2|H2]; auto. right. apply comments_last in Ht as [b ->].
      apply settled_app in H2; auto. discriminate. }
    destruct (comments_steps t Ht w v r Hw Fw) as (l & Hn & Hs). rewrite <- app_assoc. unfold real_cfws.
    inversion Hs as [i e He E1 E2 E3|i r1 a l1 r' H1 H2 H3 E1 E2 E3]; subst; [congruence|]. rewrite H1. cbn [map_err bind]. rewrite (many_steps _ _ _ _ _ H3). cbn [bind].
    destruct Fw as [F1 F2]. rewrite (ofws_forward w v) by (first [assumption|now apply stop_wsp|apply F1]). cbn [bind attempt]. eauto.
  - assert (X : exists e, real_cfws (w ++ r) = Err e).
    { unfold real_cfws. destruct (fws_comment_none w v r) as [e ->]; [now constructor|auto|]. cbn. eauto. }
    destruct X as [e ->]. cbn [attempt]. destruct Hf as [F1 F2]. rewrite (fws_forward w v) by (first [assumption|now apply stop_wsp]). cbn. eauto.
Qed.
Lemma cfws_none : forall r, stop r -> exists e, cfws r = Err e.
Proof.
  intros r H. unfold cfws. cbn [match_parsers]. pose proof (fws_comment_none [] [] r oFWS_none (follows_empty r H)) as [e He]. cbn [app] in He.
  unfold real_cfws at 1. rewrite He. cbn [map_err bind attempt]. destruct (fws_none r) as [e' ->]; [now apply stop_wsp|apply H|]. cbn. eauto.
Qed.
Lemma skip_cfws_forward : forall c r, rfc_oCFWS c -> follows c r -> skip_cfws (c ++ r) = Ok r.
Proof.
  intros c r [|c' H] Hf; unfold skip_cfws.
  - cbn [app]. destruct (cfws_none r) as [e ->]; [apply Hf|reflexivity].
  - destruct (cfws_forward c' r H Hf) as [v ->]. reflexivity.
Qed.
Lemma ocfws_forward : forall c r, rfc_oCFWS c -> follows c r -> exists v, optional cfws (c ++ r) = Ok (r, v).
Proof.
  intros c r [|c' H] Hf; unfold optional.
  - cbn [app]. destruct (cfws_none r) as [e ->]; [apply Hf|cbn; eauto].
  - destruct (cfws_forward c' r H Hf) as [v ->]. cbn. eauto.
Qed.

(* C42: exactly which mails are still accepted when header features are switched off. *)
From Coq Require Import Lia ZifyBool ZifyNat ZifyN.
From Verif Require Import Base Utf8 CharSets Combinators Time Address MimeFields Fields Message Entity Email Envs Rfc5322 Rfc2047 CodecSpec RfcFields EmailSpec SoundMessage EmailProofs MessageFacts Steps Complete CompleteFields
  ForwardText ForwardFields ForwardMessage HeaderFacts LinedFacts LessSpec LessFacts LineSpec LineFacts RangeFacts PercentProofs ForwardMime EnvOk.
Local Open Scope N_scope.

(* ---- the header lines of a text are determined by it ---- *)
Lemma lines_eq : forall c c' i i', hline c -> hline c' -> new_line i -> new_line i' -> c ++ i = c' ++ i' -> c = c' /\ i = i'.
Proof.
  assert (G : forall c c' z, hline c -> hline c' -> c' = c ++ z -> new_line z -> z = []).
  { intros c c' z [n t Hn Ht] [n' t' [_ Hn'] Ht'] X HZ. destruct (lined_end (n' ++ [58] ++ t') (n ++ [58] ++ t) z) as [H|(w & r & -> & W)]; [|now rewrite <- !app_assoc in *| exact H|].
    - apply lined_app; [now apply ftext_lined|]. apply lined_app; [|exact Ht']. constructor; [left; unfold rfc_VCHAR; lia|constructor].
    - exfalso. exact (HZ w r eq_refl W). }
  assert (P : forall z i, new_line (z ++ i) -> new_line z) by (intros z i H c r ->; exact (H c (r ++ i) eq_refl)).
  intros c c' i i' H H' Hi Hi' X. apply app_eq_app in X as (z & [[-> ->]|[-> ->]]).
  - pose proof (G c' _ z H' H eq_refl (P _ _ Hi')) as ->. now rewrite app_nil_r.
  - pose proof (G c _ z H H' eq_refl (P _ _ Hi)) as ->. now rewrite app_nil_r.
Qed.
Lemma name_eq : forall n t n' t', chars1 rfc_ftext n -> chars1 rfc_ftext n' -> n ++ [58] ++ t ++ CRLF = n' ++ [58] ++ t' ++ CRLF -> n = n' /\ t = t'.
Proof.
  intros n t n' t' Hn Hn' X. cbn [app] in X. apply colon_unique in X as [-> X]; [|now apply ftext_no_colon|now apply ftext_no_colon]. split; [reflexivity|]. now apply app_inv_tail in X.
Qed.
Lemma bare_new_line : forall r, bare r -> new_line r.
Proof. intros r H. apply ends_new_line. now apply bare_wsp. Qed.
Lemma line_listed : forall ls r a n t z, Forall proper_line ls -> bare r -> hlines a -> chars1 rfc_ftext n -> lined t -> new_line z ->
  block_text ls ++ r = a ++ (n ++ [58] ++ t ++ CRLF) ++ z -> In (n, t) ls.
Proof.
  intros ls r a n t z H Hr Ha Hn Ht Hz. revert a Ha. induction H as [|[n0 t0] ls [Hn0 Ht0] H IH]; intros a Ha X.
  - exfalso. cbn [block_text map concat app] in X. assert (S : starts_header r).
    { rewrite X. destruct Ha as [|c d Hc _]; [exists n, (t ++ CRLF ++ z); split; [rewrite app_nil_l; change (58 :: t ++ CRLF) with ([58] ++ t ++ CRLF); now rewrite <- !app_assoc|exact Hn]|]. rewrite <- app_assoc. now apply hline_starts. }
    destruct S as (m & y & Y & [Hm Hm']). destruct m as [|x m]; [congruence|]. apply Forall_inv in Hm'. unfold rfc_ftext in Hm'. destruct Hr as [->|[q ->]]; [discriminate|]. injection Y as <- _. lia.
  - unfold block_text in X. cbn [map concat] in X. rewrite <- app_assoc in X. fold (block_text ls) in X. assert (L : hline (line_text (n0, t0))) by (apply proper_hline; now split).
    assert (N : new_line (block_text ls ++ r)) by (apply block_new_line; [exact H|now apply bare_new_line]). cbn [fst snd] in *. destruct Ha as [|c d Hc Hd].
    + cbn [app] in X. change (n ++ 58 :: t ++ CRLF) with (n ++ [58] ++ t ++ CRLF) in X. apply lines_eq in X as [X _]; auto; [|now constructor]. unfold line_text in X. cbn [fst snd] in X. change (bs ":") with [58] in X.
      left. apply name_eq in X as [-> ->]; auto.
    + rewrite <- app_assoc in X. apply lines_eq in X as [_ X]; auto.
      * right. exact (IH d Hd X).
      * apply ends_new_line. destruct Hd as [|c' d' Hc' _]; [|rewrite <- app_assoc; apply starts_header_wsp; now apply hline_starts]. cbn [app]. change (n ++ 58 :: t ++ CRLF) with (n ++ [58] ++ t ++ CRLF).
        apply starts_header_wsp, hline_starts. now constructor.
Qed.

(* ---- the names of the headers that are not interpreted ---- *)
Lemma known_features : forall E name, In name (known_names E) -> In name names \/ (f_trace E = true /\ In name trace_names).
Proof.
  intros E name H. unfold known_names, when in H. repeat (apply in_app_or in H as [H|H]);
    match type of H with In _ (if ?b then _ else _) => destruct b eqn:F; [|destruct H] | In _ [] => destruct H end; try (right; split; [reflexivity|exact H]);
    left; repeat (destruct H as [<-|H]; [unfold names; cbn [map ename fst entries]; in_list|]); destruct H.
Qed.
Lemma lost_unknown : forall E E' n t, chars1 rfc_ftext n -> lost E E' (n ++ [58] ++ t ++ CRLF) -> forall name, In name (known_names E') -> ~ same_nocase n (bs name).
Proof.
  intros E E' n t Hn HL name Hk Hs'. destruct HL as [(f & Hf & HT & F)|[F HL]].
  - destruct (field_named E n (t ++ CRLF) f Hn Hf HT) as [(c & v & -> & _)|(N & HK & HN & _)]; [discriminate F|]. unfold same_nocase in *. rewrite HN in Hs'.
    unfold known_names, when in Hk. destruct f; cbn [kind is_trace feature] in *; try discriminate; inversion HK; subst N; rewrite F in Hk;
      repeat (apply in_app_or in Hk as [Hk|Hk]; [repeat match type of Hk with In _ (if ?b then _ else _) => destruct b end; repeat (destruct Hk as [<-|Hk]; [vm_compute in Hs'; discriminate|]); destruct Hk|]);
      repeat match type of Hk with In _ (if ?b then _ else _) => destruct b end; repeat (destruct Hk as [<-|Hk]; [vm_compute in Hs'; discriminate|]); destruct Hk.
  - remember (n ++ [58] ++ t ++ CRLF) as c eqn:Ec. destruct HL as [name' n' t' Hi Hs Ht]. cbn [app] in Ec. apply colon_unique in Ec as [-> _]; [| |now apply ftext_no_colon].
    + destruct (known_features E' name Hk) as [Hk'|[F' _]]; [|congruence].
      assert (T : forallb (fun a => forallb (fun b => negb (bytes_eqb (map fold_case (bs a)) (map fold_case (bs b)))) names) trace_names = true) by (vm_compute; reflexivity).
      rewrite forallb_forall in T. specialize (T name' Hi). rewrite forallb_forall in T. specialize (T name Hk'). apply negb_true_iff in T. unfold same_nocase in *.
      assert (X : bytes_eqb (map fold_case (bs name')) (map fold_case (bs name)) = true) by (apply bytes_eqb_eq; congruence). congruence.
    + apply (fold_nocolon _ _ Hs). destruct (trace_letters name' Hi) as (_ & _ & H). exact H.
Qed.

(* ---- unstructured text has no blank line ---- *)
Definition unblanked (s : bytes) : Prop := forall a w b, s = a ++ CRLF ++ w ++ CRLF ++ b -> ~ chars1 rfc_WSP w.
Lemma unblanked_cons : forall c s, c <> 13 -> unblanked s -> unblanked (c :: s).
Proof. intros c s Hc H [|x a] w b X; [injection X as X _; congruence|]. injection X as _ X. exact (H a w b X). Qed.
Lemma unblanked_chars : forall l s, Forall (fun c => c <> 13) l -> unblanked s -> unblanked (l ++ s).
Proof. intros l s H Hs. induction H; cbn [app]; auto using unblanked_cons. Qed.
Lemma wsp_cr : forall w, chars rfc_WSP w -> Forall (fun c => c <> 13) w.
Proof. intros w H. eapply Forall_impl; [|exact H]. intros c Hc. unfold rfc_WSP in Hc. lia. Qed.
Lemma first_char : forall w w' x y r r', chars rfc_WSP w -> chars rfc_WSP w' -> ~ rfc_WSP x -> ~ rfc_WSP y -> w ++ x :: r = w' ++ y :: r' -> x = y.
Proof.
  intros w w' x y r r' H. revert w'. induction H as [|c w Hc H IH]; intros [|c' w'] H' Hx Hy X; cbn [app] in X; injection X as X1 X2; subst; auto; try (apply Forall_inv in H'; contradiction); try contradiction.
  apply Forall_inv_tail in H'. eauto.
Qed.
Lemma unblanked_utext : forall t v, rfc_utext t v -> forall s, unblanked s -> unblanked (t ++ s).
Proof.
  intros t v H. induction H as [|w v c t x Hw Hc H IH]; intros s Hs; [exact Hs|]. specialize (IH s Hs). rewrite <- !app_assoc. assert (C : unblanked ([c] ++ t ++ s)) by (apply unblanked_cons; [unfold rfc_VCHAR in Hc; lia|exact IH]).
  destruct Hw as [|w v [w' [_ Hw]|w1 w2 Hw1 [Hw2 Hw2']]]; [exact C|apply unblanked_chars; [now apply wsp_cr|exact C]|]. rewrite <- !app_assoc. apply unblanked_chars; [now apply wsp_cr|].
  assert (D : unblanked (w2 ++ [c] ++ t ++ s)) by (apply unblanked_chars; [now apply wsp_cr|exact C]).
  intros [|a0 a] u b X [W1 W2].
  - apply (app_inv_head CRLF) in X. apply first_char in X; auto; unfold rfc_VCHAR, rfc_WSP in *; lia.
  - change (13 :: 10 :: (w2 ++ [c] ++ t ++ s) = a0 :: (a ++ CRLF ++ u ++ CRLF ++ b)) in X. injection X as _ X. refine (unblanked_cons 10 (w2 ++ [c] ++ t ++ s) _ D a u b X _); [lia|now split].
Qed.
Lemma text_unblank : forall m tc t v, rfc_text_value m tc t v -> unblank t.
Proof.
  intros m tc t v H. assert (G : exists v, rfc_unstructured t v) by (destruct m; [exact (mime_text_shape _ _ _ H)|eauto]). destruct G as [v' [t' x w H1 H2]]. unfold unblank. change (unblanked ((t' ++ w) ++ CRLF)). rewrite <- app_assoc.
  eapply unblanked_utext; [exact H1|]. apply unblanked_chars; [now apply wsp_cr|]. intros a w' b X _. apply (f_equal (@length byte)) in X. rewrite !app_length in X. cbn in X. lia.
Qed.

(* ---- the two directions ---- *)
Lemma listed_good : forall E E' ls r, Forall proper_line ls -> bare r ->
  (forall n t, In (n, t) ls -> (forall name, In name (known_names E') -> ~ same_nocase n (bs name)) -> unblank t) -> good E E' (block_text ls ++ r).
Proof.
  intros E E' ls r H Hr HU a n t z X Ha Hn Ht Hz HL. apply (HU n t); [|eapply lost_unknown; eauto]. eapply line_listed; eauto. now apply ends_new_line.
Qed.
Lemma unknown_unblank : forall E ls r fs b n t, env_ok E -> Forall proper_line ls -> bare r -> parse_message E (block_text ls ++ r) = Ok (fs, b) -> In (n, t) ls ->
  (forall name, In name (known_names E) -> ~ same_nocase n (bs name)) -> unblank t.
Proof.
  intros E ls r fs b n t HE H Hr HM Hi HU. apply in_split in Hi as (l1 & l2 & ->). apply Forall_app in H as [H1 H2]. inversion H2 as [|x l [Hn Ht] H3]; subst. cbn [fst snd] in *.
  replace (block_text (l1 ++ (n, t) :: l2) ++ r) with (block_text l1 ++ line_text (n, t) ++ block_text l2 ++ r) in HM.
  2:{ unfold block_text. rewrite map_app, concat_app. cbn [map concat]. now rewrite <- !app_assoc. }
  assert (L : proper_line (n, t)) by (now split). assert (HT : f_trace E = true -> ~ trace_line (n, t)).
  { intros F (name & Hn' & Hs). apply (HU name); [|exact Hs]. unfold known_names. rewrite F. cbn [when]. repeat (apply in_or_app; right). exact Hn'. }
  assert (N : new_line (block_text l2 ++ r)) by (apply block_new_line; [exact H3|now apply bare_new_line]).
  apply message_split in HM as (f1 & f2 & -> & _ & HM); auto.
  - apply message_ok in HM as (r' & HF & Hr' & _ & _). apply fields_of_steps in HF; auto.
    + inversion HF as [i e X|i r1 f l r0 X LL Hs]; subst.
      * exfalso. destruct n as [|x n]; [now destruct Hn|]. destruct Hn as [_ Hx]. apply Forall_inv in Hx. unfold rfc_ftext in Hx. destruct Hr' as [Y|[q Y]]; [discriminate|]. injection Y as -> _. lia.
      * destruct (any_field_sound E _ _ _ HE X) as (c & Y & Hc). pose proof (any_field_not_trace _ _ _ _ X) as T. pose proof (field_hline _ _ _ Hc T) as Hl.
        assert (N1 : new_line r1).
        { apply ends_new_line. destruct (steps_texts _ _ (field_text E) (fun i r a => any_field_sound E i r a HE) _ _ _ Hs) as (d & -> & Hd). apply hlines_wsp; [|exact Hr']. eapply hlines_many; [|exact Hd]. intros. eapply field_hlines; eauto. }
        apply lines_eq in Y as [Y _]; auto using proper_hline. subst c. unfold line_text in Hc. cbn [fst snd] in Hc. change (bs ":") with [58] in Hc.
        destruct (field_named E n (t ++ CRLF) f Hn Hc T) as [(c & v & _ & C & HV)|(M & _ & HM' & HI)]; [|exfalso; exact (HU M HI HM')]. apply app_inv_tail in C. subst c. eapply text_unblank; eauto.
    + intros F. apply no_starts_trace. apply line_no_trace; auto.
  - apply ends_new_line, starts_header_wsp, hline_starts. now apply proper_hline.
  - intros F. apply line_no_trace; auto.
Qed.
Theorem email_less_exact : forall E E' ls r e, env_ok E -> env_ok E' -> fewer E' E -> Forall proper_line ls -> bare r -> parse E (block_text ls ++ r) = Ok e ->
  (exists e', parse E' (block_text ls ++ r) = Ok e') <-> (forall n t, In (n, t) ls -> (forall name, In name (known_names E') -> ~ same_nocase n (bs name)) -> unblank t).
Proof.
  intros E E' ls r e HE HE' HF H Hr P. split.
  - intros [e' P'] n t Hi HU. destruct (parse_ok_message _ _ _ P') as (fs & b & M). eapply unknown_unblank; eauto.
  - intros HU. destruct (email_less E E' _ e HE HE' HF (listed_good E E' ls r H Hr HU) P) as (e' & _ & _ & _ & _ & _ & _ & _ & _ & _ & _ & P' & _). eauto.
Qed.
(* an accepted mail is such a text *)
Lemma hlines_block : forall c, hlines c -> exists ls, c = block_text ls /\ Forall proper_line ls.
Proof. intros c H. induction H as [|c d [n t Hn Ht] H (ls & -> & IH)]; [exists []; split; [reflexivity|constructor]|]. exists ((n, t) :: ls). split; [reflexivity|]. constructor; [now split|exact IH]. Qed.
Lemma accepted_lines : forall E data e, env_ok E -> parse E data = Ok e -> exists ls r, data = block_text ls ++ r /\ Forall proper_line ls /\ bare r.
Proof.
  intros E data e HE P. destruct (no_byte_lost E data e HE P) as (ts & fs & b & H & _ & D & _). assert (HL : hlines (concat ts)).
  { clear D. induction H as [|c f ts fs Hc H IH]; [constructor|]. cbn [concat]. apply hlines_app; [eapply field_hlines; eauto|exact IH]. }
  destruct (hlines_block _ HL) as (ls & X & HP). rewrite X in D. destruct D as [[_ ->]|(t & _ & ->)].
  - exists ls, []. rewrite app_nil_r. split; [reflexivity|]. split; [exact HP|now left].
  - exists ls, (CRLF ++ t). split; [reflexivity|]. split; [exact HP|right; eauto].
Qed.
Theorem email_less_lines : forall E E' ls r e, env_ok E -> env_ok E' -> fewer E' E -> Forall proper_line ls -> bare r -> parse E (block_text ls ++ r) = Ok e ->
  (forall n t, In (n, t) ls -> (forall name, In name (known_names E') -> ~ same_nocase n (bs name)) -> unblank t) ->
  exists e' b fs fs', rest_text r b /\ demoted E E' (block_text ls) fs fs' /\ email_of E fs b e /\ email_of E' fs' b e' /\ parse E' (block_text ls ++ r) = Ok e' /\ poorer E' e e'.
Proof.
  intros E E' ls r e HE HE' HF H Hr P HU. destruct (email_less E E' _ e HE HE' HF (listed_good E E' ls r H Hr HU) P) as (e' & c & r' & b & fs & fs' & X & R & D & M & M' & P' & O).
  assert (HL : hlines c). { clear - D. induction D; [constructor| |]; (apply hlines_app; [eapply field_hlines; eassumption|assumption]). }
  assert (Y : block_text ls = c /\ r = r').
  { destruct (hlines_block _ HL) as (ls' & -> & H'). assert (Hr' : bare r') by (destruct R; [now left|right; eauto]). clear - H H' Hr Hr' X. revert ls' H' X. induction H as [|[n t] ls Hx H IH]; intros ls' H' X.
    - destruct H' as [|x ls' Hx' H']; [now split|]. exfalso. assert (I : In x []); [|destruct I]. destruct x as [n t], Hx' as [Hn Ht]. eapply (line_listed [] r [] n t (block_text ls' ++ r')); auto using hlines_nil.
      + apply block_new_line; [exact H'|now apply bare_new_line].
      + change (block_text [] ++ r) with r in *. rewrite X. unfold block_text, line_text. cbn [map concat fst snd]. change (bs ":") with [58]. now rewrite app_nil_l, <- !app_assoc.
    - destruct H' as [|x ls' Hx' H'].
      + exfalso. assert (I : In (n, t) []); [|destruct I]. destruct Hx as [Hn Ht]. eapply (line_listed [] r' [] n t (block_text ls ++ r)); auto using hlines_nil.
        * apply block_new_line; [exact H|now apply bare_new_line].
        * change (block_text [] ++ r') with r' in *. rewrite <- X. unfold block_text, line_text. cbn [map concat fst snd]. change (bs ":") with [58]. now rewrite app_nil_l, <- !app_assoc.
      + unfold block_text in *. cbn [map concat] in *. rewrite <- !app_assoc in X. apply lines_eq in X as [X1 X2]; auto using proper_hline.
        * destruct (IH ls' H' X2) as [-> ->]. now rewrite X1.
        * apply (block_new_line ls r); [exact H|now apply bare_new_line].
        * apply (block_new_line ls' r'); [exact H'|now apply bare_new_line]. }
  destruct Y as [<- <-]. exists e', b, fs, fs'. auto 10.
Qed.

(* unblank by computation *)
Fixpoint blank_start (l : bytes) : bool := match l with x :: r => starts_with l CRLF || (((x =? 32) || (x =? 9)) && blank_start r) | [] => false end.
Definition blank_at (l : bytes) : bool := match l with 13 :: 10 :: x :: r => ((x =? 32) || (x =? 9)) && blank_start r | _ => false end.
Fixpoint has_blank (l : bytes) : bool := blank_at l || match l with [] => false | _ :: r => has_blank r end.
Lemma blank_start_app : forall w b, chars rfc_WSP w -> blank_start (w ++ CRLF ++ b) = true.
Proof.
  intros w b H. induction H as [|x w Hx H IH]; [now destruct b|]. cbn [app blank_start]. unfold bytes, byte in *. rewrite IH. replace ((x =? 32) || (x =? 9)) with true by (unfold rfc_WSP in Hx; lia). apply orb_true_r.
Qed.
Lemma has_blank_app : forall a l, blank_at l = true -> has_blank (a ++ l) = true.
Proof. induction a as [|x a IH]; intros l H; [destruct l; cbn [app has_blank]; now rewrite H|]. cbn [app has_blank]. rewrite (IH l H). apply orb_true_r. Qed.
Lemma unblank_b : forall t, has_blank (t ++ CRLF) = false -> unblank t.
Proof.
  intros t H a w b X [Hw W]. rewrite X, has_blank_app in H; [discriminate|]. destruct w as [|x w]; [congruence|]. change (CRLF ++ (x :: w) ++ CRLF ++ b) with (13 :: 10 :: x :: (w ++ CRLF ++ b)).
  apply Forall_inv in W as Wx. apply Forall_inv_tail in W. cbn [blank_at]. rewrite blank_start_app by exact W. unfold rfc_WSP in Wx. lia.
Qed.
(* the default build with the header feature `to` only *)
Definition env_to : env :=
  {| f_from := false; f_sender := false; f_subject := false; f_date := false; f_to := true; f_cc := false; f_bcc := false; f_message_id := false;
     f_in_reply_to := false; f_references := false; f_reply_to := false; f_comments := false; f_keywords := false; f_trace := false; f_mime := f_mime env_default; f_unrecognized_headers := f_unrecognized_headers env_default;
     f_compatibility_fixes := f_compatibility_fixes env_default; debug := debug env_default; textcode := textcode env_default; hash_order := hash_order env_default |}.
Lemma env_to_ok : env_ok env_to.
Proof. destruct env_default_ok. constructor; cbn in *; auto; try discriminate. Qed.

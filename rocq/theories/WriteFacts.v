(* What is written as in Writers.v is in the grammar: texts, words, addresses. *)
From Coq Require Import Lia ZifyBool ZifyNat ZifyN.
From Verif Require Import Base Utf8 CharSets Combinators Whitespace QuotedString Common Time Address MimeFields Fields Message Entity Email Envs
  Rfc5322 Rfc2047 Post CodecSpec RfcFields SoundBase SoundTime SoundAddr TagNoCase SoundFields Steps Complete CompleteFields Forward ForwardText ForwardAddr ForwardList ForwardMime ForwardMimeFields ForwardFields ForwardMessage HeaderFacts EmailSpec LocalSpec LocalFacts RecaseFacts KeptFacts Writers.
Local Open Scope N_scope.
Ltac sp := repeat lazymatch goal with |- _ /\ _ => split end.

Lemma no_blank_ends : forall i, no_blank i -> ends is_wsp i.
Proof. intros [|c i] H; cbn; [exact I|]. destruct (is_wsp c) eqn:X; [|reflexivity]. apply wsp_spec in X. exfalso. exact (H c i eq_refl X). Qed.

(* ---- unfolded text ---- *)
Lemma utext_unfolded : forall t v, rfc_utext t v -> forall w, chars rfc_WSP w -> exists first more, t ++ w = folded first more /\ v ++ w = first ++ concat more /\ chars printable first /\ Forall continuation more.
Proof.
  assert (WP : forall w, chars rfc_WSP w -> chars printable w) by (intros w Hw; eapply Forall_impl; [|exact Hw]; intros; now right).
  intros t v H. induction H as [|w0 v0 c t x H0 Hc Ht IH]; intros w Hw.
  - exists w, []. unfold folded. cbn. rewrite app_nil_r. auto.
  - destruct (IH w Hw) as (first & more & E1 & E2 & F & M). rewrite <- !app_assoc. unfold bytes, byte in *. rewrite E1, E2.
    assert (P0 : forall u, chars rfc_WSP u -> chars printable (u ++ [c] ++ first)). { intros u Hu. apply Forall_app. split; [now apply WP|]. apply Forall_cons; [now left|exact F]. }
    destruct H0 as [|a0 b0 [a0' [Hn H0]|w1 w2 H1 [Hn H2]]].
    + exists ([c] ++ first), more. sp; auto. apply (P0 []). constructor.
    + exists (a0' ++ [c] ++ first), more. unfold folded. rewrite <- !app_assoc. sp; auto. 
    + exists w1, ((w2 ++ [c] ++ first) :: more). unfold folded. cbn [map concat]. rewrite <- !app_assoc. sp; auto.
      constructor; auto. split; [now apply P0|]. split; [|apply Exists_exists; exists c; split; [apply in_or_app; right; now left|exact Hc]].
      destruct w2 as [|b w2]; [easy|]. inversion H2; subst. exists b, (w2 ++ [c] ++ first). auto.
Qed.
Lemma utext_last : forall t v, rfc_utext t v -> forall a b, v = a ++ [b] -> ~ rfc_WSP b.
Proof.
  intros t v H. induction H as [|w v c t x Hw Hc Ht IH]; intros a b E; [destruct a; discriminate|].
  destruct Ht as [|w' v' c' t' x' Hw' Hc' Ht'].
  - rewrite app_nil_r in E. apply app_inj_tail in E as [_ <-]. unfold rfc_VCHAR, rfc_WSP in *. lia.
  - destruct (exists_last (l := v' ++ [c'] ++ x')) as (y & z & Y); [destruct v'; discriminate|]. unfold bytes, byte in *. rewrite Y in *.
    rewrite !app_assoc in E. apply app_inj_tail in E as [_ <-]. now apply (IH y z).
Qed.
Definition text_with (c x : bytes) : Prop := exists t v w, c = t ++ w /\ x = v ++ w /\ rfc_utext t v /\ chars rfc_WSP w.
Lemma text_char : forall b c x, printable b -> text_with c x -> text_with ([b] ++ c) ([b] ++ x).
Proof.
  intros b c x [Hb|Hb] (t & v & w & -> & -> & Ht & Hw).
  - exists ([b] ++ t), ([b] ++ v), w. sp; auto. apply (utext_cons [] []); auto. constructor.
  - destruct Ht as [|w0 v0 d t y H0 Hd Ht].
    + exists [], [], ([b] ++ w). sp; auto; constructor; auto.
    + exists (([b] ++ w0) ++ [d] ++ t), (([b] ++ v0) ++ [d] ++ y), w. sp; auto. apply utext_cons; auto. constructor.
      destruct H0 as [|a0 b0 [a0' [_ H0]|w1 w2 H1 H2]].
      * constructor. split; [discriminate|]. constructor; auto.
      * constructor. split; [discriminate|]. constructor; auto.
      * apply (FWS_fold ([b] ++ w1)); auto. constructor; auto.
Qed.
Lemma text_chars : forall l c x, chars printable l -> text_with c x -> text_with (l ++ c) (l ++ x).
Proof. intros l c x H Hc. induction H as [|b l Hb _ IH]; [exact Hc|]. exact (text_char b _ _ Hb IH). Qed.
Lemma continuation_split : forall l, continuation l -> exists w c r, l = w ++ [c] ++ r /\ chars1 rfc_WSP w /\ rfc_VCHAR c /\ chars printable r.
Proof.
  intros l (HP & (b & r & -> & Hb) & HE). inversion HP as [|? ? _ HR]; subst. inversion HE as [? ? X|? ? X]; subst; [exfalso; unfold rfc_VCHAR, rfc_WSP in *; lia|]. clear HP HE.
  assert (G : forall r, chars printable r -> Exists rfc_VCHAR r -> exists w c q, r = w ++ [c] ++ q /\ chars rfc_WSP w /\ rfc_VCHAR c /\ chars printable q).
  { clear. induction r as [|a r IH]; intros HR X; [inversion X|]. inversion HR as [|? ? Ha HR']; subst. destruct Ha as [Ha|Ha].
    - exists [], a, r. sp; auto. constructor.
    - inversion X as [? ? Y|? ? Y]; subst; [exfalso; unfold rfc_VCHAR, rfc_WSP in *; lia|]. destruct (IH HR' Y) as (w & c & q & -> & Hw & Hc & Hq). exists (a :: w), c, q. sp; auto. now constructor. }
  destruct (G r HR X) as (w & c & q & -> & Hw & Hc & Hq). exists ([b] ++ w), c, q. sp; auto. split; [discriminate|now constructor].
Qed.
Lemma text_folded : forall more, Forall continuation more -> text_with (concat (map (fun l => CRLF ++ l) more)) (concat more).
Proof.
  intros more H. induction H as [|l more Hl _ IH]; [exists [], [], []; sp; try reflexivity; constructor|].
  apply continuation_split in Hl as (w & c & r & -> & Hw & Hc & Hr). cbn [map concat]. destruct (text_chars r _ _ Hr IH) as (t & v & w' & E1 & E2 & Ht & Hw').
  exists ((CRLF ++ w) ++ [c] ++ t), (w ++ [c] ++ v), w'. unfold bytes, byte in *. sp; auto.
  - rewrite <- !app_assoc. rewrite E1. reflexivity.
  - rewrite <- !app_assoc. rewrite E2. reflexivity.
  - apply utext_cons; auto. constructor. apply (FWS_fold []); auto. constructor.
Qed.
Lemma trimmed_fun : forall x v v', trimmed x v -> trimmed x v' -> v = v'.
Proof.
  assert (G : forall v w v' w', v ++ w = v' ++ w' -> chars rfc_WSP w -> (forall a b, v' = a ++ [b] -> ~ rfc_WSP b) -> (length v <= length v')%nat -> v = v').
  { intros v w v' w' E Hw Hv' L. apply app_eq_app in E as (l & [[-> E]|[-> E]]).
    - rewrite app_length in L. destruct l; [now rewrite app_nil_r|cbn in L; lia].
    - destruct l as [|q l] using rev_ind; [now rewrite app_nil_r|]. exfalso. apply (Hv' (v ++ l) q); [now rewrite app_assoc|]. subst w. apply Forall_app in Hw as [Hw _]. apply Forall_app in Hw as [_ Hw]. now inversion Hw. }
  intros x v v' (w & -> & Hw & Hv) (w' & E & Hw' & Hv'). destruct (Nat.le_ge_cases (length v) (length v')); [eapply G; eauto|]. symmetry. eapply G; eauto.
Qed.
Lemma unfolded_iff : forall c v, rfc_unstructured c v <-> unfolded c v.
Proof.
  intros c v. split.
  - intros [t v' w Ht Hw]. destruct (utext_unfolded t v' Ht w Hw) as (first & more & E1 & E2 & F & M). rewrite E1. constructor; auto. exists w. split; [now rewrite <- E2|]. split; [exact Hw|]. eapply utext_last; eauto.
  - intros [first more v' F M T]. destruct (text_chars first _ _ F (text_folded more M)) as (t & u & w & E1 & E2 & Ht & Hw). unfold folded. unfold bytes, byte in *. rewrite E1.
    assert (v' = u). { eapply trimmed_fun; [exact T|]. exists w. split; [exact E2|]. split; [exact Hw|]. eapply utext_last; eauto. }
    subst. now constructor.
Qed.
(* ---- with encoded words allowed, but none there ---- *)
Lemma ew_start : forall tc e d, rfc_encoded_word tc e d -> exists r, e = bs "=?" ++ r.
Proof. intros tc e d []. eauto. Qed.
Lemma mime_utext_plain : forall tc after t x, mime_utext tc after t x -> no_encoded t -> rfc_utext t x.
Proof.
  intros tc after t x H. induction H as [|after w v c t x Hw Hc Ht IH|after w v e d t x Hw He Ht IH]; intros N.
  - constructor.
  - apply utext_cons; auto. apply IH. intros a b E. apply (N (w ++ [c] ++ a) b). rewrite E. now rewrite <- !app_assoc.
  - exfalso. apply ew_start in He as [r ->]. apply (N w (r ++ t)). now rewrite <- !app_assoc.
Qed.
Lemma utext_first : forall c t x, rfc_utext ([c] ++ t) x -> rfc_VCHAR c -> exists y, x = [c] ++ y /\ rfc_utext t y.
Proof.
  intros c t x H Hc. inversion H as [|w v d t' y Hw Hd Ht E]; subst. destruct Hw as [|u0 u1 [u [Hn Hw]|w1 w2 H1 H2]].
  - injection E as -> ->. exists y. split; [reflexivity|exact Ht].
  - exfalso. destruct u as [|b u]; [easy|]. inversion Hw; subst. injection E as -> _. unfold rfc_VCHAR, rfc_WSP in *. lia.
  - exfalso. destruct w1 as [|b w1]; [injection E as <- _; unfold rfc_VCHAR in *; lia|]. inversion H1; subst. injection E as -> _. unfold rfc_VCHAR, rfc_WSP in *. lia.
Qed.
Lemma utext_run : forall t x, rfc_utext t x -> exists a s y, t = a ++ s /\ chars rfc_VCHAR a /\ no_vchar s /\ x = a ++ y /\ rfc_utext s y.
Proof.
  intros t. induction t as [|c t IH]; intros x H.
  - exists [], [], x. sp; auto; [constructor|intros c r; discriminate].
  - assert (D : rfc_VCHAR c \/ ~ rfc_VCHAR c) by (unfold rfc_VCHAR; lia). destruct D as [D|D].
    + destruct (utext_first c t x H D) as (y & -> & Hy). destruct (IH y Hy) as (a & s & z & -> & Ha & Hs & -> & Hz). exists (c :: a), s, z. sp; auto. now constructor.
    + exists [], (c :: t), x. sp; auto; [constructor|]. intros d r E. now injection E as <- _.
Qed.
Lemma utext_clear : forall tc n t x after, (length t <= n)%nat -> rfc_utext t x -> no_encoded t -> clear_utext tc after t x.
Proof.
  intros tc. induction n as [|n IH]; intros t x after L H N.
  - destruct t; [|cbn in L; lia]. inversion H as [|w v c t y Hw Hc Ht E]; [constructor|]. destruct w; discriminate.
  - destruct H as [|w v c t x Hw Hc Ht]; [constructor|]. destruct (utext_run t x Ht) as (a & s & y & -> & Ha & Hs & -> & Hy).
    change ([c] ++ a ++ s) with (([c] ++ a) ++ s). change ([c] ++ a ++ y) with (([c] ++ a) ++ y). apply clear_utext_run; auto.
    + split; [discriminate|]. now constructor.
    + intros e d r He E. apply ew_start in He as [q ->]. apply (N w (q ++ r ++ s)). unfold bytes, byte in *. rewrite (app_assoc [c] a s), E. now rewrite <- !app_assoc.
    + apply IH; auto; [rewrite !app_length in L; cbn in L; lia|]. intros p q E. apply (N (w ++ [c] ++ a ++ p) q). rewrite E. now rewrite <- !app_assoc.
Qed.
Lemma no_encoded_prefix : forall a b, no_encoded (a ++ b) -> no_encoded a.
Proof. intros a b H p q E. apply (H p (q ++ b)). rewrite E. now rewrite <- !app_assoc. Qed.
Lemma text_value_plain : forall mime tc c v, (mime = true -> no_encoded c) -> rfc_text_value mime tc c v -> unfolded c v.
Proof.
  intros [] tc c v N H; apply unfolded_iff; [|exact H]. destruct H as [t v w Ht Hw]. constructor; auto. eapply mime_utext_plain; eauto. eapply no_encoded_prefix. now apply N.
Qed.
Lemma text_value_written : forall mime tc c v, (mime = true -> no_encoded c) -> unfolded c v -> clear_text_value mime tc c v.
Proof.
  intros [] tc c v N H; apply unfolded_iff in H; [|exact H]. destruct H as [t v w Ht Hw]. constructor; auto. eapply utext_clear; eauto. eapply no_encoded_prefix. now apply N.
Qed.
(* one header *)
Lemma header_value : forall A E e1 e2 m (p : parser A) m2 (name : string) (V V' : bytes -> A -> Prop) n c v i,
  nocase_pair (bs e1) (bs e2) = true -> bs e1 = bs name ++ [58] -> ~ In 58 (bs name) -> same_nocase n (bs name) ->
  (forall j, post never (p j) j V) -> (V' c v -> p (c ++ CRLF ++ i) = Ok (CRLF ++ i, v)) -> (V c v -> V' c v) ->
  header E e1 e2 m p m2 (n ++ [58] ++ c ++ CRLF ++ i) = Ok (i, v) <-> V' c v.
Proof.
  intros A E e1 e2 m p m2 name V V' n c v i H1 H2 Hc Hn HS HF HV. split.
  - intros H. pose proof (sound_header A E never e1 e2 name m m2 p V (n ++ [58] ++ c ++ CRLF ++ i) H1 H2 HS) as S. rewrite H in S. destruct S as (x & X & S).
    apply HV. destruct S as [n' c' v' Hn' Hv']. rewrite <- !app_assoc in X. cbn [app] in X. apply colon_unique in X as [-> X]; try (eapply fold_nocolon; eauto).
    rewrite !app_assoc in X. apply app_inv_tail in X. change [13; 10] with CRLF in X. apply app_inv_tail in X. now subst.
  - intros H. unfold header. rewrite (name_tag E name) by auto. cbn [bind]. rewrite (HF H). cbn [bind]. rewrite tag_app. reflexivity.
Qed.
Lemma subject_unfolded : forall E n c v i, same_nocase n (bs "Subject") -> (f_mime E = true -> no_encoded c) -> no_blank i ->
  field_subject E (n ++ bs ":" ++ c ++ CRLF ++ i) = Ok (i, v) <-> unfolded c v.
Proof.
  intros E n c v i Hn Hc Hi. unfold field_subject. apply (header_value _ E _ _ _ _ _ "Subject"%string (rfc_text_value (f_mime E) (textcode E)) unfolded); auto; [no_colon|intros; apply sound_text_value| |now apply text_value_plain].
  intros H. apply text_value_forward; [now apply text_value_written|now apply no_blank_ends].
Qed.
Lemma comments_unfolded : forall E n c v i, same_nocase n (bs "Comments") -> (f_mime E = true -> no_encoded c) -> no_blank i ->
  field_comments E (n ++ bs ":" ++ c ++ CRLF ++ i) = Ok (i, v) <-> unfolded c v.
Proof.
  intros E n c v i Hn Hc Hi. unfold field_comments. apply (header_value _ E _ _ _ _ _ "Comments"%string (rfc_text_value (f_mime E) (textcode E)) unfolded); auto; [no_colon|intros; apply sound_text_value| |now apply text_value_plain].
  intros H. apply text_value_forward; [now apply text_value_written|now apply no_blank_ends].
Qed.
Lemma unknown_unfolded : forall E n c v i, chars1 rfc_ftext n -> (f_unrecognized_headers E = true -> no_encoded c) -> no_blank i ->
  unknown E (n ++ bs ":" ++ c ++ CRLF ++ i) = Ok (i, (n, v)) <-> unfolded c v.
Proof.
  intros E n c v i Hn Hc Hi. split.
  - intros H. pose proof (sound_unknown E never (n ++ bs ":" ++ c ++ CRLF ++ i)) as S. rewrite H in S. destruct S as (x & X & S). inversion S as [n' c' v' Hn' Hv' E1 E2]. subst. apply (text_value_plain _ (textcode E) c v Hc).
    rewrite <- !app_assoc in X. change (bs ":") with [58] in X. apply app_inv_head in X. apply app_inv_head in X. rewrite !app_assoc in X. apply app_inv_tail in X. apply app_inv_tail in X. now subst.
  - intros H. apply unknown_forward; auto; [now apply text_value_written|now apply no_blank_ends].
Qed.

(* malformed headers *)
Lemma malformed_written : forall E pre n c v i e, env_ok E -> header_start pre -> chars1 rfc_ftext n ->
  (f_unrecognized_headers E = true -> no_encoded c) -> unfolded c v -> no_blank i -> malformed E (n ++ bs ":" ++ c ++ CRLF) ->
  parse E (pre ++ n ++ bs ":" ++ c ++ CRLF ++ i) = Ok e -> In (n, v) (unknown_fields e).
Proof. intros E pre n c v i e HE Hp Hn N Hc Hi. apply malformed_email; auto; [now apply text_value_written|now apply no_blank_ends]. Qed.
Lemma from_without_at_written : forall E pre n c v i e, env_ok E -> header_start pre -> same_nocase n (bs "From") -> ~ In 64 c ->
  (f_unrecognized_headers E = true -> no_encoded c) -> unfolded c v -> no_blank i ->
  parse E (pre ++ n ++ bs ":" ++ c ++ CRLF ++ i) = Ok e -> In (n, v) (unknown_fields e).
Proof. intros E pre n c v i e HE Hp Hn Na N Hc Hi. apply from_without_at; auto; [now apply text_value_written|now apply no_blank_ends]. Qed.

(* ---- quoting ---- *)
Lemma qbody_blank : forall b, rfc_WSP b -> forall c v, rfc_qbody c v -> rfc_qbody ([b] ++ c) ([b] ++ v).
Proof.
  intros b Hb c v H. assert (W : forall w v, rfc_oFWS w v -> rfc_oFWS ([b] ++ w) ([b] ++ v)).
  { intros w x [|w' x' [u [_ Hu]|w1 w2 H1 H2]]; constructor; [constructor; split; [discriminate|constructor; [exact Hb|constructor]]|constructor; split; [discriminate|now constructor]|].
    apply (FWS_fold ([b] ++ w1)); auto. now constructor. }
  destruct H as [w x Hw|w x t d q y Hw Ht Hq]; [apply qbody_end; auto|].
  change ([b] ++ w ++ t ++ q) with (([b] ++ w) ++ t ++ q). change ([b] ++ x ++ [d] ++ y) with (([b] ++ x) ++ [d] ++ y). apply qbody_cons; auto.
Qed.
Lemma quoting_qbody : forall b v, quoting b v -> rfc_qbody b v.
Proof.
  intros b v H. induction H as [|c b v Hc N1 N2 H IH|c b v Hc H IH].
  - apply (qbody_end [] []). constructor.
  - destruct Hc as [Hc|Hc]; [|now apply qbody_blank]. apply (qbody_cons [] [] [c] c b v); auto; [constructor|]. constructor. unfold rfc_qtext, rfc_VCHAR in *. lia.
  - apply (qbody_cons [] [] [92; c] c b v); auto; [constructor|]. apply qcontent_pair. now constructor.
Qed.
Lemma escaped_quoting : forall v, chars printable v -> quoting (escaped v) v.
Proof.
  intros v H. induction H as [|c v Hc _ IH]; [constructor|]. unfold escaped in *. cbn [map concat]. unfold escape at 1. destruct ((c =? 34) || (c =? 92)) eqn:X.
  - now apply (quoting_pair c).
  - apply (quoting_plain c); auto; lia.
Qed.
Lemma quoting_printable : forall b v, quoting b v -> chars printable v.
Proof. intros b v H. induction H; constructor; auto. Qed.

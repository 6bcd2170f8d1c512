(* Completeness: the MIME headers. *)
From Coq Require Import Lia ZifyBool ZifyNat ZifyN Permutation.
From Verif Require Import Base Utf8 CharSets Combinators Whitespace QuotedString Common Time Address Percent MimeFields Fields
  Rfc5322 Rfc2047 Post CodecSpec RfcFields SoundBase SoundTime TagNoCase ParamProofs SoundFields Steps Complete CompleteFields Forward ForwardText ForwardAddr
  ForwardList ForwardTime ForwardMime ForwardParams ForwardParts.
Local Open Scope N_scope.

(* ---- one parameter ---- *)
Lemma skip_shorter : forall i j, skip_cfws i = Ok j -> (length j <= length i)%nat.
Proof.
  intros i j H. pose proof (sound_skip_cfws (fun _ => False) i) as S. rewrite H in S. destruct S as (c & -> & _). rewrite app_length. lia.
Qed.
Lemma value_core : forall c v i j, clear_param_value c v -> ends is_token_char i -> skip_cfws i = Ok j ->
  exists j', match_parsers [token; quoted_string] (c ++ i) = Ok (j', v) /\ (j' = i \/ j' = j).
Proof.
  intros c v i j [c' Hc|b v' Hb] Hi Hj; cbn [match_parsers].
  - exists i. rewrite (token_forward c' i) by auto. auto.
  - exists j. rewrite <- !app_assoc. destruct (take_while1_err is_token_char ([34] ++ b ++ [34] ++ i)) as [e He]; [reflexivity|]. unfold token at 1. rewrite He. cbn [attempt].
    pose proof (quoted_string_core [] b v' i (oCFWS_none) Hb) as Q. cbn [app] in *. rewrite Q, Hj. auto.
Qed.
Lemma vis59 : visible 59 /\ 59 <> 40. Proof. unfold visible. lia. Qed.
Lemma clear_name_token : forall n v, clear_param_name n v -> mime_token n.
Proof. intros n v [n' v' H|a H _]; auto. eapply indexed_token; eauto. Qed.
Lemma ocfws_token : forall l n r, rfc_oCFWS l -> mime_token n -> exists o, optional cfws (l ++ n ++ r) = Ok (n ++ r, o).
Proof.
  intros l n r Hl [Hn1 Hn2]. destruct n as [|d n]; [congruence|]. inversion Hn2; subst. destruct (token_visible d) as [V1 V2]; auto.
  exact (ocfws_before l d (n ++ r) Hl V1 V2).
Qed.
Lemma parameter_core : forall l w n a x e c v i j, rfc_oCFWS l -> rfc_oCFWS w -> clear_param_name n (a, x, e) -> clear_param_value c v ->
  ends is_token_char i -> skip_cfws i = Ok j ->
  exists j', parameter (l ++ bs ";" ++ w ++ n ++ bs "=" ++ c ++ i) = Ok (j', (a, x, e, v)) /\ (j' = i \/ j' = j).
Proof.
  intros l w n a x e c v i j Hl Hw Hn Hc Hi Hj. unfold parameter.
  destruct (ocfws_before l 59 (w ++ n ++ bs "=" ++ c ++ i) Hl) as [o Ho]; [apply vis59|apply vis59|].
  match goal with |- context [optional cfws ?y] => match type of Ho with _ = ?z => replace (optional cfws y) with z by (symmetry; exact Ho) end end. cbn [bind].
  change (59 :: w ++ n ++ bs "=" ++ c ++ i) with (bs ";" ++ w ++ n ++ bs "=" ++ c ++ i). rewrite tag_app. cbn [bind].
  destruct (ocfws_token w n (bs "=" ++ c ++ i) Hw) as [o2 ->]; [eapply clear_name_token; eauto|]. cbn [bind].
  destruct (param_name_forward n (a, x, e) (c ++ i) Hn) as (a' & Ha & Hp). cbn [fst snd] in Ha, Hp. change (bs "=" ++ c ++ i) with (61 :: c ++ i). rewrite Hp. cbn [bind].
  change (61 :: c ++ i) with (bs "=" ++ c ++ i). rewrite tag_app. cbn [bind].
  destruct (value_core c v i j Hc Hi Hj) as (j' & Hv & Hj'). exists j'. split; auto. rewrite Hv. cbn [bind]. rewrite lowercase_fold, Ha. reflexivity.
Qed.
(* no further parameter before the line end *)
Lemma ocfws_inline : forall x i, inline_cfws x -> ends is_wsp i -> exists w o, chars rfc_WSP w /\ optional cfws (x ++ CRLF ++ i) = Ok (w ++ CRLF ++ i, o).
Proof.
  intros x i Hx Hi. destruct (skip_inline x i Hx Hi) as (w & Hw & Hs & _). destruct (skip_optional _ _ Hs) as [o Ho]. eauto.
Qed.
Lemma semicolon_none : forall w i m, chars rfc_WSP w -> tag (bs ";") m (w ++ CRLF ++ i) = Err (Explicit m).
Proof. intros w i m Hw. apply (tag_head_err 59 []). apply blank_ends; auto. Qed.
Lemma parameter_none : forall x i, inline_cfws x -> ends is_wsp i -> exists e, parameter (x ++ CRLF ++ i) = Err e.
Proof.
  intros x i Hx Hi. unfold parameter. destruct (ocfws_inline x i Hx Hi) as (w & o & Hw & ->). cbn [bind]. rewrite semicolon_none by auto. eexists. reflexivity.
Qed.

(* ---- lists of parameters ---- *)
Section Items.
Variables (A : Type) (p : parser A) (P : bytes -> A -> Prop).
Hypothesis P_head : forall c a, P c a -> exists t, c = 59 :: t.
Hypothesis P_forward : forall l c a i j, rfc_oCFWS l -> P c a -> ends is_token_char i -> skip_cfws i = Ok j ->
  exists j', p (l ++ c ++ i) = Ok (j', a) /\ (j' = i \/ j' = j).
Hypothesis p_none : forall x i, inline_cfws x -> ends is_wsp i -> exists e, p (x ++ CRLF ++ i) = Err e.

Inductive spaced : bytes -> A -> Prop := spaced_intro : forall w c a, rfc_oCFWS w -> P c a -> spaced (w ++ c) a.

Lemma inline_token_end : forall x i, inline_cfws x -> ends is_token_char (x ++ CRLF ++ i).
Proof.
  intros x i [w w' Hw Hw'|w c w' Hw Hc Hw'].
  - apply blank_ends; [now apply Forall_app|reflexivity|reflexivity|reflexivity].
  - rewrite <- !app_assoc. destruct w as [|b w].
    + apply comment_head in Hc as [b ->]. reflexivity.
    + apply (wsp_ends is_token_char (b :: w)); [split; [discriminate|exact Hw]|reflexivity|reflexivity].
Qed.
Lemma items_end : forall cs l x i, many_of spaced cs l -> inline_cfws x -> ends is_wsp i ->
  ends is_token_char (cs ++ x ++ CRLF ++ i) /\ exists j, skip_cfws (cs ++ x ++ CRLF ++ i) = Ok j.
Proof.
  intros cs l x i H Hx Hi. destruct H as [|c a cs l Hc H].
  - split; [now apply inline_token_end|]. destruct (skip_inline x i Hx Hi) as (w & _ & Hs & _). eauto.
  - destruct Hc as [w c a Hw Hc]. apply P_head in Hc as [t ->]. rewrite <- !app_assoc. cbn [app]. split.
    + apply oCFWS_ends; auto; reflexivity.
    + exists ((59 :: t) ++ cs ++ x ++ CRLF ++ i). apply (skip_before w 59); [auto|apply vis59|apply vis59].
Qed.
Lemma items_steps : forall cs l, many_of spaced cs l -> forall x i s, inline_cfws x -> ends is_wsp i ->
  s = cs ++ x ++ CRLF ++ i \/ skip_cfws (cs ++ x ++ CRLF ++ i) = Ok s ->
  exists x', inline_cfws x' /\ steps p s l (x' ++ CRLF ++ i).
Proof.
  intros cs l H. induction H as [|c a cs l Hc H IH]; intros x i s Hx Hi Hs.
  - assert (X : exists x', inline_cfws x' /\ s = x' ++ CRLF ++ i).
    { destruct Hs as [->|Hs]; [exists x; auto|]. destruct (skip_inline x i Hx Hi) as (w & Hw & Hs' & _). cbn [app] in Hs. rewrite Hs' in Hs. inversion Hs; subst.
      exists w. split; auto. rewrite <- (app_nil_r w). apply inline_blank; [auto|constructor]. }
    destruct X as (x' & Hx' & ->). exists x'. split; auto. destruct (p_none x' i Hx' Hi) as [e He]. eapply steps_stop, He.
  - destruct Hc as [w c a Hw Hc].
    assert (X : exists l', rfc_oCFWS l' /\ s = l' ++ c ++ cs ++ x ++ CRLF ++ i).
    { destruct Hs as [->|Hs]; [exists w; rewrite <- !app_assoc; auto|]. exists []. split; [constructor|]. cbn [app].
      pose proof (P_head c a Hc) as [t ->]. rewrite <- !app_assoc in Hs. change ((59 :: t) ++ cs ++ x ++ CRLF ++ i) with (59 :: t ++ cs ++ x ++ CRLF ++ i) in Hs.
      rewrite (skip_before w 59) in Hs by (auto; apply vis59). inversion Hs. reflexivity. }
    destruct X as (l' & Hl' & ->). destruct (items_end cs l x i H Hx Hi) as [He [j Hj]].
    destruct (P_forward l' c a (cs ++ x ++ CRLF ++ i) j Hl' Hc He Hj) as (j' & Hp & Hj').
    destruct (IH x i j' Hx Hi) as (x' & Hx' & Hst); [destruct Hj' as [->| ->]; auto|]. exists x'. split; auto. eapply steps_more; [exact Hp| |exact Hst].
    apply skip_shorter in Hj. apply P_head in Hc as [t ->]. assert (length j' <= length (cs ++ x ++ CRLF ++ i))%nat by (destruct Hj' as [->| ->]; auto).
    rewrite app_length. cbn [app length]. rewrite (app_length t). lia.
Qed.
End Items.

Inductive param_core : bytes -> param -> Prop :=
| param_core_intro : forall w n a i e c v, rfc_oCFWS w -> clear_param_name n (a, i, e) -> clear_param_value c v ->
    param_core (bs ";" ++ w ++ n ++ bs "=" ++ c) (a, i, e, v).
Lemma params_forward : forall cs raw x i, many_of clear_param cs raw -> inline_cfws x -> ends is_wsp i ->
  exists x', inline_cfws x' /\ many parameter (cs ++ x ++ CRLF ++ i) = Ok (x' ++ CRLF ++ i, raw).
Proof.
  intros cs raw x i H Hx Hi. destruct (items_steps param parameter param_core) with (cs := cs) (l := raw) (x := x) (i := i) (s := cs ++ x ++ CRLF ++ i) as (x' & Hx' & Hs); auto.
  - intros c a []. eexists. reflexivity.
  - intros l c a i0 j Hl [w n a0 x0 e c0 v Hw Hn Hc] He Hj. rewrite <- !app_assoc. now apply parameter_core.
  - exact parameter_none.
  - eapply many_of_impl; [exact H|]. intros c a [w w' n a0 x0 e c0 v Hw Hw' Hn Hc]. constructor; auto. now constructor.
  - exists x'. split; auto. now apply many_steps.
Qed.

(* ---- the headers ---- *)
Lemma name_tag : forall E (name : string) e1 e2 msg n r, nocase_pair e1 e2 = true -> e1 = bs name ++ [58] -> same_nocase n (bs name) ->
  tag_no_case E e1 e2 msg (n ++ [58] ++ r) = Ok (r, tt).
Proof.
  intros E name e1 e2 msg n r Hp -> Hn. rewrite app_assoc. apply tag_no_case_ok; auto. unfold same_nocase in *. transitivity (map fold_case n ++ map fold_case [58]); [apply map_app|].
  rewrite Hn. symmetry. apply map_app.
Qed.
Ltac use_name name H := match goal with |- context [tag_no_case ?E ?e1 ?e2 ?msg (?n ++ [58] ++ ?r)] =>
  rewrite (name_tag E name e1 e2 msg n r eq_refl eq_refl H) end; cbn [bind].
Ltac use_eq H := match type of H with ?f ?a = ?z => match goal with |- context [f ?y] => replace (f y) with z by (symmetry; exact H) end end.
Lemma mime_version_forward : forall E c v i, rfc_header "MIME-Version" rfc_mime_version c v -> mime_version E (c ++ i) = Ok (i, v).
Proof.
  intros E c v i [n c' v' Hn [w c1 c2 x Hw H1 H2 L1 L2 Hx]]. unfold mime_version. rewrite <- !app_assoc. use_name "MIME-Version"%string Hn.
  assert (O : exists o, optional cfws (w ++ c1 ++ bs "." ++ c2 ++ x ++ CRLF ++ i) = Ok (c1 ++ bs "." ++ c2 ++ x ++ CRLF ++ i, o)).
  { apply ocfws_token; auto. destruct H1 as [H1 H1']. split; auto. eapply Forall_impl; [|exact H1']. intros y Hy. unfold rfc_DIGIT in Hy. split; [lia|cbn; lia]. }
  destruct O as [o ->]. cbn [bind]. rewrite (u8_number_forward c1) by (auto; reflexivity). cbn [bind]. rewrite tag_app. cbn [bind].
  rewrite (u8_number_forward c2); auto.
  - cbn [bind]. rewrite (inline_forward x) by auto. cbn [bind]. rewrite tag_app. reflexivity.
  - pose proof (inline_token_end x i Hx) as T. destruct (x ++ CRLF ++ i) as [|y t]; [exact I|]. cbn in *. destruct (is_digit y) eqn:D; auto. apply digit_spec in D.
    assert (is_token_char y = true) by (apply token_char_spec; unfold rfc_DIGIT in D; split; [lia|cbn; lia]). congruence.
Qed.
Lemma encoding_forward : forall E c v i, rfc_header "Content-Transfer-Encoding" clear_encoding c v -> content_transfer_encoding E (c ++ i) = Ok (i, v).
Proof.
  intros E c v i [n c' v' Hn [w k e x Hw Hk Hx]]. unfold content_transfer_encoding. rewrite <- !app_assoc. use_name "Content-Transfer-Encoding"%string Hn.
  destruct (ocfws_token w k (x ++ CRLF ++ i) Hw) as [o ->]; [eapply encoding_token; eauto|]. cbn [bind].
  rewrite (encoding_name_forward E k e) by (auto; now apply inline_token_end). cbn [bind]. rewrite (inline_forward x) by auto. cbn [bind]. rewrite tag_app. reflexivity.
Qed.
Lemma segments_no_overflow : forall E raw, segments_ok E raw -> forall n, no_overflow E (segment raw n).
Proof. intros E raw H n. unfold no_overflow. destruct (debug E) eqn:D; auto. Qed.
Lemma clear_param_rfc : forall c p, clear_param c p -> rfc_param c p.
Proof.
  intros c p [w w' n a i e c0 v Hw Hw' Hn Hc]. constructor; auto.
  - inversion Hn as [n' v' H|a' Ha Hno]; subst; [|now apply param_name_plain]. inversion H; subst. now constructor.
  - destruct Hc as [c0 Hc|b v Hb]; [now constructor|]. apply param_value_quoted. rewrite <- (app_nil_r ([34] ++ b ++ [34])), <- !app_assoc. apply (quoted_string_intro [] b v []); auto; constructor.
Qed.
Lemma content_type_forward : forall E c t s l i, (forall x, Permutation (hash_order E x) x) -> ends is_wsp i ->
  rfc_header "Content-Type" (clear_content_type E) c (t, s, l) ->
  exists l', content_type E (c ++ i) = Ok (i, (t, s, l')) /\ forall n, map_get l n = map_get l' n.
Proof.
  intros E c t s l i Hh Hi H. inversion H as [n c' v' Hn Hc E1 E2]; subst; clear H. inversion Hc as [w k t' s' ps raw l0 x Hw Hk Hs Hps Hov Hv Hx E1 E2]; subst; clear Hc.
  assert (Hraw : Forall param_ok raw). { eapply many_param_ok, many_of_impl; [exact Hps|]. intros. now apply clear_param_rfc. }
  destruct (collect_parameters_forward E raw Hh Hraw (segments_no_overflow E raw Hov) (params_value_defined _ _ _ Hv)) as (l' & Hcp & Hv').
  exists l'. split; [|eapply params_value_fun; eauto].
  unfold content_type. rewrite <- !app_assoc. use_name "Content-Type"%string Hn.
  destruct (ocfws_token w k (bs "/" ++ s' ++ ps ++ x ++ CRLF ++ i) Hw) as [o ->]; [eapply mime_type_token; eauto|]. cbn [bind].
  rewrite (mime_type_forward E k t) by (auto; reflexivity). cbn [bind]. rewrite tag_app. cbn [bind].
  destruct (items_end param param_core) with (cs := ps) (l := raw) (x := x) (i := i) as [He _]; auto.
  { intros c a []. eexists. reflexivity. }
  { eapply many_of_impl; [exact Hps|]. intros c a [w0 w' n0 a0 x0 e c0 v Hw0 Hw' Hn0 Hc]. constructor; auto. now constructor. }
  rewrite (token_forward s') by auto. cbn [bind]. destruct (params_forward ps raw x i Hps Hx Hi) as (x' & Hx' & ->). cbn [bind]. rewrite Hcp. cbn [bind].
  rewrite (inline_forward x') by auto. cbn [bind]. rewrite tag_app. cbn [bind]. now rewrite lowercase_fold.
Qed.
(* ---- values that must not end with an open blank ---- *)
Lemma open_blanks : forall c, fold_left tail_step c InText = OpenBlanks ->
  exists a w, c = a ++ w /\ chars1 rfc_WSP w /\ (a = [] \/ exists b y, a = b ++ [y] /\ y <> 10 /\ ~ rfc_WSP y).
Proof.
  intros c. induction c as [|y c IH] using rev_ind; intros H; [discriminate|]. rewrite fold_left_app in H. cbn [fold_left] in H. unfold tail_step in H at 1.
  destruct (is_wsp y) eqn:W.
  - apply wsp_spec in W. destruct (fold_left tail_step c InText) eqn:S; [|discriminate|].
    + exists c, [y]. split; auto. split; [split; [discriminate|apply Forall_cons; [exact W|constructor]]|].
      clear IH. induction c as [|z c' _] using rev_ind; [now left|right]. exists c', z. split; auto. rewrite fold_left_app in S. cbn [fold_left] in S. unfold tail_step in S at 1.
      destruct (is_wsp z) eqn:Z; [destruct (fold_left tail_step c' InText); discriminate|]. destruct (N.eqb_spec z 10); [discriminate|]. split; auto.
      intros Hz. apply wsp_spec in Hz. congruence.
    + destruct (IH eq_refl) as (a & w & -> & [Hw1 Hw2] & Ha). exists a, (w ++ [y]). rewrite app_assoc. split; auto. split; auto. split; [destruct w; discriminate|].
      apply Forall_app. split; auto.
  - destruct (y =? 10); discriminate.
Qed.
Lemma tidy_settled : forall c, tidy c -> settled c.
Proof.
  intros c H S. apply open_blanks in S as (a & w & -> & Hw & Ha). destruct (H a w eq_refl Hw) as (b & y & -> & Hy).
  destruct Ha as [Ha|(b' & y' & Ha & H1 & H2)]; [now apply app_eq_nil in Ha as [_ Ha]|]. apply app_inj_tail in Ha as [_ ->]. tauto.
Qed.
Lemma tidy_follows : forall c i, tidy c -> ends is_wsp i -> follows c (CRLF ++ i).
Proof. intros c i H Hi. apply follows_crlf; auto. now apply tidy_settled. Qed.

Lemma content_id_forward : forall E c v i, ends is_wsp i -> rfc_header "Content-ID" (tidily (rfc_msg_id (f_compatibility_fixes E))) c v ->
  content_id E (c ++ i) = Ok (i, v).
Proof.
  intros E c v i Hi [n c' v' Hn [Hc Ht]]. unfold content_id. rewrite <- !app_assoc. use_name "Content-ID"%string Hn.
  rewrite (message_id_forward E c' v') by (auto; now apply tidy_follows). cbn [bind]. rewrite tag_app. reflexivity.
Qed.
Lemma content_description_forward : forall E c v i, ends is_wsp i -> rfc_header "Content-Description" (clear_text (textcode E)) c v ->
  content_description E (c ++ i) = Ok (i, v).
Proof.
  intros E c v i Hi [n c' v' Hn Hc]. unfold content_description. rewrite <- !app_assoc. use_name "Content-Description"%string Hn.
  rewrite (mime_unstructured_forward E c' v') by auto. cbn [bind]. rewrite tag_app. reflexivity.
Qed.

(* ---- Content-Disposition ---- *)
Inductive item_core : bytes -> disposition_item -> Prop :=
| core_filename : forall w n c v, rfc_oCFWS w -> same_nocase n (bs "filename") -> clear_param_value c v ->
    item_core (bs ";" ++ w ++ n ++ bs "=" ++ c) (DFilename v)
| core_creation : forall w n c d, rfc_oCFWS w -> same_nocase n (bs "creation-date") -> rfc_date_value c d ->
    item_core (bs ";" ++ w ++ n ++ bs "=" ++ [34] ++ c ++ [34]) (DCreation d)
| core_modification : forall w n c d, rfc_oCFWS w -> same_nocase n (bs "modification-date") -> rfc_date_value c d ->
    item_core (bs ";" ++ w ++ n ++ bs "=" ++ [34] ++ c ++ [34]) (DModification d)
| core_read : forall w n c d, rfc_oCFWS w -> same_nocase n (bs "read-date") -> rfc_date_value c d ->
    item_core (bs ";" ++ w ++ n ++ bs "=" ++ [34] ++ c ++ [34]) (DRead d)
| core_param : forall w n a i e c v, rfc_oCFWS w -> clear_param_name n (a, i, e) -> clear_param_value c v ->
    (forall name, In name disposition_names -> ~ same_nocase n (bs name)) ->
    item_core (bs ";" ++ w ++ n ++ bs "=" ++ c) (DParam (a, i, e, v)).
Lemma item_head : forall c a, item_core c a -> exists t, c = 59 :: t.
Proof. intros c a []; eexists; reflexivity. Qed.
Lemma item_spaced : forall c a, clear_disposition_item c a -> spaced disposition_item item_core c a.
Proof. intros c a H. destruct H; constructor; auto; now constructor. Qed.
(* ";" and the white space around it *)
Lemma item_start : forall A msg (k : bytes -> res (bytes * A)) l w n r, rfc_oCFWS l -> rfc_oCFWS w -> mime_token n ->
  (let* (i, _) := optional cfws (l ++ bs ";" ++ w ++ n ++ r) in let* (i, _) := tag (bs ";") msg i in let* (i, _) := optional cfws i in k i) = k (n ++ r).
Proof.
  intros A msg k l w n r Hl Hw Hn. destruct (ocfws_before l 59 (w ++ n ++ r) Hl) as [o Ho]; [apply vis59|apply vis59|].
  match goal with |- context [optional cfws ?y] => match type of Ho with _ = ?z => replace (optional cfws y) with z by (symmetry; exact Ho) end end. cbn [bind].
  change (59 :: w ++ n ++ r) with (bs ";" ++ w ++ n ++ r). rewrite tag_app. cbn [bind]. destruct (ocfws_token w n r Hw Hn) as [o2 ->]. reflexivity.
Qed.
Lemma nocase_token : forall n name, Forall (fun x => forall y, fold_case y = fold_case x -> is_token_char y = true) name -> name <> [] -> same_nocase n name -> mime_token n.
Proof.
  intros n name H Hne Hs. apply (clear_keyword_token unit [(name, tt)] (fun _ => tt) n tt); [constructor; auto|]. eapply clear_known; eauto. now left.
Qed.
Lemma filename_token : forall n, same_nocase n (bs "filename") -> mime_token n.
Proof. intros n H. apply (nocase_token n (bs "filename")); [keyword_chars|discriminate|exact H]. Qed.
Lemma creation_token : forall n, same_nocase n (bs "creation-date") -> mime_token n.
Proof. intros n H. apply (nocase_token n (bs "creation-date")); [keyword_chars|discriminate|exact H]. Qed.
Lemma modification_token : forall n, same_nocase n (bs "modification-date") -> mime_token n.
Proof. intros n H. apply (nocase_token n (bs "modification-date")); [keyword_chars|discriminate|exact H]. Qed.
Lemma read_token : forall n, same_nocase n (bs "read-date") -> mime_token n.
Proof. intros n H. apply (nocase_token n (bs "read-date")); [keyword_chars|discriminate|exact H]. Qed.
(* a parameter of another name: either the name or the "=" does not match *)
Lemma other_name : forall E e1 e2 msg n r, nocase_pair e1 e2 = true -> Forall (fun x => forall y, fold_case y = fold_case x -> is_token_char y = true) e1 ->
  mime_token n -> ~ same_nocase n e1 ->
  (exists e, tag_no_case E e1 e2 msg (n ++ 61 :: r) = Err e) \/ (exists t, tag_no_case E e1 e2 msg (n ++ 61 :: r) = Ok (t, tt) /\ ends (fun c => 61 =? c) t).
Proof.
  intros E e1 e2 msg n r Hp He Hn Hno. destruct (starts_nocase (n ++ 61 :: r) e1) eqn:S.
  - right. destruct (starts_nocase_prefix e1 n (61 :: r) S eq_refl He) as (x & y & -> & Hx). exists (y ++ 61 :: r). rewrite <- app_assoc.
    rewrite (tag_no_case_ok E e1 e2 msg x) by auto. split; auto. destruct y as [|z y]; [rewrite app_nil_r in Hno; tauto|].
    change ((61 =? z) = false). destruct Hn as [_ Hn]. apply Forall_app in Hn as [_ Hn]. inversion Hn as [|? ? Hz _]; subst. apply N.eqb_neq. intros <-. destruct Hz as [_ Hz]. apply Hz. cbn. tauto.
  - left. now apply tag_no_case_err.
Qed.
Lemma filename_none : forall E l w n r, rfc_oCFWS l -> rfc_oCFWS w -> mime_token n -> ~ same_nocase n (bs "filename") ->
  exists e, filename_parameter E (l ++ bs ";" ++ w ++ n ++ 61 :: r) = Err e.
Proof.
  intros E l w n r Hl Hw Hn Hno. unfold filename_parameter. rewrite item_start by auto.
  destruct (other_name E (bs "filename") (bs "FILENAME") "TAG NO CASE ERROR: In a Content-Disposition header, the name of the parameter does not match a filename parameter." n r eq_refl)
    as [[e ->]|(t & -> & Ht)]; auto; [keyword_chars|eexists; reflexivity|]. cbn [bind].
  rewrite (tag_head_err 61 []) by auto. eexists. reflexivity.
Qed.
Lemma date_param_none : forall E e1 e2 l w n r, nocase_pair e1 e2 = true -> Forall (fun x => forall y, fold_case y = fold_case x -> is_token_char y = true) e1 ->
  rfc_oCFWS l -> rfc_oCFWS w -> mime_token n -> ~ same_nocase n e1 ->
  exists e, date_parameter E e1 e2 (l ++ bs ";" ++ w ++ n ++ 61 :: r) = Err e.
Proof.
  intros E e1 e2 l w n r Hp He Hl Hw Hn Hno. unfold date_parameter. rewrite item_start by auto.
  destruct (other_name E e1 e2 "TAG NO CASE ERROR: In a Content-Disposition header, the name of the parameter does not match a date parameter." n r Hp)
    as [[e ->]|(t & -> & Ht)]; auto; [eexists; reflexivity|]. cbn [bind].
  unfold DQUOTE. rewrite (tag_head_err 61 [34]) by auto. eexists. reflexivity.
Qed.
Lemma date_param_forward : forall E e1 e2 l w n c d i, nocase_pair e1 e2 = true -> rfc_oCFWS l -> rfc_oCFWS w -> mime_token n -> same_nocase n e1 -> rfc_date_value c d ->
  date_parameter E e1 e2 (l ++ bs ";" ++ w ++ n ++ bs "=" ++ [34] ++ c ++ [34] ++ i) = Ok (i, d).
Proof.
  intros E e1 e2 l w n c d i Hp Hl Hw Hn Hs Hd. unfold date_parameter. rewrite item_start by auto. rewrite tag_no_case_ok by auto. cbn [bind].
  change (bs "=" ++ [34] ++ c ++ [34] ++ i) with ([61; DQUOTE] ++ c ++ [34] ++ i). rewrite tag_app. cbn [bind].
  rewrite (date_time_forward E c d); [|exact Hd|apply follows_head; [reflexivity|discriminate|discriminate]]. cbn [bind]. unfold DQUOTE. rewrite tag_app. reflexivity.
Qed.
Ltac nocase_differs H := let X := fresh in intros X; unfold same_nocase in *; rewrite H in X; vm_compute in X; discriminate X.
Lemma item_forward : forall E l c a i j, rfc_oCFWS l -> item_core c a -> ends is_token_char i -> skip_cfws i = Ok j ->
  exists j', disposition_item_parser E (l ++ c ++ i) = Ok (j', a) /\ (j' = i \/ j' = j).
Proof.
  intros E l c a i j Hl Hc Hi Hj. unfold disposition_item_parser. cbn [match_parsers]. unfold pmap.
  destruct Hc as [w n c v Hw Hn Hc|w n c d Hw Hn Hc|w n c d Hw Hn Hc|w n c d Hw Hn Hc|w n a x e c v Hw Hn Hc Hno]; rewrite <- !app_assoc.
  - pose proof (filename_token n Hn) as T. destruct (value_core c v i j Hc Hi Hj) as (j' & Hv & Hj'). exists j'. split; auto.
    unfold filename_parameter. rewrite item_start by auto. rewrite tag_no_case_ok by (auto; reflexivity). cbn [bind]. rewrite tag_app. cbn [bind]. rewrite Hv. reflexivity.
  - pose proof (creation_token n Hn) as T. exists i. split; auto. destruct (filename_none E l w n ([34] ++ c ++ [34] ++ i)) as [e1 He1]; auto; [nocase_differs Hn|].
    use_at filename_parameter He1. cbn [bind attempt]. rewrite date_param_forward with (d := d) by (auto; reflexivity). reflexivity.
  - pose proof (modification_token n Hn) as T. exists i. split; auto. destruct (filename_none E l w n ([34] ++ c ++ [34] ++ i)) as [e1 He1]; auto; [nocase_differs Hn|].
    use_at filename_parameter He1. cbn [bind attempt].
    destruct (date_param_none E (bs "creation-date") (bs "CREATION-DATE") l w n ([34] ++ c ++ [34] ++ i)) as [e2 He2]; auto; [keyword_chars|nocase_differs Hn|].
    match goal with |- context [date_parameter E ?a ?b ?y] => replace (date_parameter E a b y) with (@Err (bytes * date_time_t) e2) by (symmetry; exact He2) end. cbn [bind attempt].
    rewrite date_param_forward with (d := d) by (auto; reflexivity). reflexivity.
  - pose proof (read_token n Hn) as T. exists i. split; auto. destruct (filename_none E l w n ([34] ++ c ++ [34] ++ i)) as [e1 He1]; auto; [nocase_differs Hn|].
    use_at filename_parameter He1. cbn [bind attempt].
    destruct (date_param_none E (bs "creation-date") (bs "CREATION-DATE") l w n ([34] ++ c ++ [34] ++ i)) as [e2 He2]; auto; [keyword_chars|nocase_differs Hn|].
    match goal with |- context [date_parameter E ?a ?b ?y] => replace (date_parameter E a b y) with (@Err (bytes * date_time_t) e2) by (symmetry; exact He2) end. cbn [bind attempt].
    destruct (date_param_none E (bs "modification-date") (bs "MODIFICATION-DATE") l w n ([34] ++ c ++ [34] ++ i)) as [e3 He3]; auto; [keyword_chars|nocase_differs Hn|].
    match goal with |- context [date_parameter E ?a ?b ?y] => replace (date_parameter E a b y) with (@Err (bytes * date_time_t) e3) by (symmetry; exact He3) end. cbn [bind attempt].
    rewrite date_param_forward with (d := d) by (auto; reflexivity). reflexivity.
  - pose proof (clear_name_token n _ Hn) as T.
    assert (N1 : ~ same_nocase n (bs "filename")) by (apply Hno; cbn; tauto).
    assert (N2 : ~ same_nocase n (bs "creation-date")) by (apply Hno; cbn; tauto).
    assert (N3 : ~ same_nocase n (bs "modification-date")) by (apply Hno; cbn; tauto).
    assert (N4 : ~ same_nocase n (bs "read-date")) by (apply Hno; cbn; tauto).
    destruct (filename_none E l w n (c ++ i)) as [e1 He1]; auto. use_at filename_parameter He1. cbn [bind attempt].
    destruct (date_param_none E (bs "creation-date") (bs "CREATION-DATE") l w n (c ++ i)) as [e2 He2]; auto; [keyword_chars|].
    match goal with |- context [date_parameter E ?a ?b ?y] => replace (date_parameter E a b y) with (@Err (bytes * date_time_t) e2) by (symmetry; exact He2) end. cbn [bind attempt].
    destruct (date_param_none E (bs "modification-date") (bs "MODIFICATION-DATE") l w n (c ++ i)) as [e3 He3]; auto; [keyword_chars|].
    match goal with |- context [date_parameter E ?a ?b ?y] => replace (date_parameter E a b y) with (@Err (bytes * date_time_t) e3) by (symmetry; exact He3) end. cbn [bind attempt].
    destruct (date_param_none E (bs "read-date") (bs "READ-DATE") l w n (c ++ i)) as [e4 He4]; auto; [keyword_chars|].
    match goal with |- context [date_parameter E ?a ?b ?y] => replace (date_parameter E a b y) with (@Err (bytes * date_time_t) e4) by (symmetry; exact He4) end. cbn [bind attempt].
    destruct (parameter_core l w n a x e c v i j Hl Hw Hn Hc Hi Hj) as (j' & Hp & Hj'). exists j'. split; auto. rewrite Hp. reflexivity.
Qed.
Lemma item_none : forall E x i, inline_cfws x -> ends is_wsp i -> exists e, disposition_item_parser E (x ++ CRLF ++ i) = Err e.
Proof.
  intros E x i Hx Hi. unfold disposition_item_parser. cbn [match_parsers]. unfold pmap. destruct (parameter_none x i Hx Hi) as [e He].
  destruct (ocfws_inline x i Hx Hi) as (w & o & Hw & Ho).
  assert (F : exists e, filename_parameter E (x ++ CRLF ++ i) = Err e).
  { unfold filename_parameter. rewrite Ho. cbn [bind]. rewrite semicolon_none by auto. eexists. reflexivity. }
  assert (D : forall n1 n2, exists e, date_parameter E n1 n2 (x ++ CRLF ++ i) = Err e).
  { intros n1 n2. unfold date_parameter. rewrite Ho. cbn [bind]. rewrite semicolon_none by auto. eexists. reflexivity. }
  destruct F as [e1 ->]. cbn [bind attempt]. destruct (D (bs "creation-date") (bs "CREATION-DATE")) as [e2 ->]. cbn [bind attempt].
  destruct (D (bs "modification-date") (bs "MODIFICATION-DATE")) as [e3 ->]. cbn [bind attempt]. destruct (D (bs "read-date") (bs "READ-DATE")) as [e4 ->]. cbn [bind attempt].
  rewrite He. eexists. reflexivity.
Qed.
Lemma clear_items_ok : forall c l, many_of clear_disposition_item c l -> Forall param_ok (params_of l).
Proof.
  intros c l H. induction H as [|c a cs l Hc H IH]; [constructor|]. cbn. apply Forall_app. split; auto. destruct Hc; constructor; [|constructor].
  eapply rfc_param_ok, clear_param_rfc. constructor; eauto.
Qed.
Lemma content_disposition_forward : forall E c d i, (forall x, Permutation (hash_order E x) x) -> ends is_wsp i ->
  rfc_header "Content-Disposition" (clear_disposition E) c d ->
  exists d', content_disposition E (c ++ i) = Ok (i, d') /\ same_field (FContentDisposition d) (FContentDisposition d').
Proof.
  intros E c d i Hh Hi [n c' d' Hn [w k t is items l x Hw Hk His Hov Hv Hx]].
  destruct (collect_parameters_forward E (params_of items) Hh (clear_items_ok _ _ His) (segments_no_overflow E _ Hov) (params_value_defined _ _ _ Hv)) as (l' & Hcp & Hv').
  eexists. split; [|apply same_disposition; eapply params_value_fun; [eapply clear_items_ok; eauto|exact Hv|exact Hv']].
  unfold content_disposition. rewrite <- !app_assoc. use_name "Content-Disposition"%string Hn.
  destruct (ocfws_token w k (is ++ x ++ CRLF ++ i) Hw) as [o ->]; [eapply disposition_token; eauto|]. cbn [bind].
  assert (Hsp : many_of (spaced disposition_item item_core) is items) by (eapply many_of_impl; [exact His|intros; now apply item_spaced]).
  destruct (items_end disposition_item item_core item_head is items x i Hsp Hx Hi) as [He _].
  rewrite (disposition_kind_forward E k t) by auto. cbn [bind].
  destruct (items_steps disposition_item (disposition_item_parser E) item_core item_head (item_forward E) (item_none E) is items Hsp x i (is ++ x ++ CRLF ++ i) Hx Hi (or_introl eq_refl))
    as (x' & Hx' & Hs).
  rewrite (many_steps _ _ _ _ _ Hs). cbn [bind]. rewrite item_params_of. rewrite Hcp. cbn [bind].
  rewrite (inline_forward x') by auto. cbn [bind]. rewrite tag_app. cbn [bind]. do 2 f_equal. rewrite fold_items. cbn. rewrite !opt_id. reflexivity.
Qed.

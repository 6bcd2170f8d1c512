(* C61, the other direction: every email that satisfies the conditions of MimeMailSpec.v is returned
   for some text. *)
From Coq Require Import Lia ZifyBool ZifyNat ZifyN Permutation.
From Verif Require Import Base Utf8 Utf8Facts CharSets Combinators Whitespace QuotedString Common Time Address Percent MimeFields Fields Message Entity Email Envs
  Rfc5322 Rfc2047 Post CodecSpec RfcFields SoundBase SoundTime SoundAddr TagNoCase SoundFields EmailSpec SoundMessage EmailProofs Steps Complete CompleteFields Forward ForwardText ForwardAddr ForwardMime
  ForwardMimeFields ForwardTrace ForwardFields ForwardMessage HeaderFacts LocalFacts Base64Proofs Writers WriteFacts WriteAddr WriteRest LinedFacts EncodedSpec EncodedFacts ParamSpec ParamProofs ParamWrite
  PercentProofs RegularFacts NeatFacts LessExact MailSpec RangeFacts RangeWrite MimeMailSpec MimeRange.
Local Open Scope N_scope.

(* ---- texts ---- *)
Definition enc_word (v : bytes) : bytes := bs "=?utf-8?B?" ++ b64_encoding v ++ bs "?=".
Definition enc_text (v : bytes) : bytes := match v with [] => [] | _ => enc_word v end.
Lemma enc_encoded : forall tc v, v <> [] -> utf8_text v -> rfc_encoded_word tc (enc_word v) v.
Proof. intros tc v Hn Hv. apply encoded_written. now apply b_encoded. Qed.
Lemma b64_atext : forall l, wf_bytes l -> chars rfc_atext (b64_encoding l).
Proof.
  assert (A : chars rfc_atext b64_alphabet). { apply Forall_forall. intros x Hx. vm_compute in Hx. unfold rfc_atext, rfc_ALPHA, rfc_DIGIT. cbn [In]. lia. }
  assert (S : forall v, v < 64 -> rfc_atext (b64_symbol v)). { intros v Hv. unfold b64_symbol. unfold chars in A. rewrite Forall_forall in A. apply A. apply nth_In. vm_compute (length b64_alphabet). lia. }
  assert (P : rfc_atext 61) by (right; right; cbn; tauto).
  intros l. pattern l. apply list_ind3; clear l.
  - intros _. constructor.
  - intros x H. inversion H as [|? ? Hx _]; subst. unfold wf_byte in *. repeat (constructor; [first [exact P|apply S; lia]|]). constructor.
  - intros x y H. inversion H as [|? ? Hx H']; subst. inversion H' as [|? ? Hy _]; subst. unfold wf_byte in *. repeat (constructor; [first [exact P|apply S; lia]|]). constructor.
  - intros x y z l IH H. inversion H as [|? ? Hx H']; subst. inversion H' as [|? ? Hy H'']; subst. inversion H'' as [|? ? Hz H3]; subst. unfold wf_byte in *. cbn [b64_encoding]. repeat (constructor; [first [exact P|apply S; lia]|]). now apply IH.
Qed.

Lemma enc_atext : forall v, utf8_text v -> chars rfc_atext (enc_word v).
Proof.
  intros v Hv. unfold enc_word. apply Forall_app. split; [|apply Forall_app; split; [now apply b64_atext, utf8_wf|]];
    (apply Forall_forall; intros x Hx; vm_compute in Hx; unfold rfc_atext, rfc_ALPHA, rfc_DIGIT; cbn [In]; lia).
Qed.
Lemma atext_printable : forall c, rfc_atext c -> printable c.
Proof. intros c H. left. unfold rfc_atext, rfc_ALPHA, rfc_DIGIT, rfc_VCHAR in *. cbn [In] in H. lia. Qed.
Lemma enc_line : forall v, utf8_text v -> text_line (enc_text v).
Proof.
  intros v Hv. destruct v as [|c v']; [split; [constructor|intros [|? ?] b H; discriminate H]|]. change (enc_text (c :: v')) with (enc_word (c :: v')). split; [eapply Forall_impl; [|apply enc_atext; exact Hv]; exact atext_printable|].
  intros a b H. unfold enc_word in H. change (bs "?=") with ([63] ++ [61]) in H. rewrite !app_assoc in H. apply app_inj_tail in H as [_ <-]. unfold rfc_WSP. lia.
Qed.
Lemma enc_utext : forall tc v, utf8_text v -> clear_utext tc false (enc_text v) v.
Proof.
  intros tc v Hv. destruct v as [|c v']; [constructor|]. change (enc_text (c :: v')) with (enc_word (c :: v')). set (v := c :: v') in *. rewrite <- (app_nil_r (enc_word v)). rewrite <- (app_nil_r v) at 2.
  apply (clear_utext_word tc false [] []); [constructor|apply enc_encoded; [discriminate|exact Hv]|constructor].
Qed.
Lemma enc_clear : forall tc v w, utf8_text v -> chars rfc_WSP w -> clear_text tc (enc_text v ++ w) v.
Proof. intros tc v w Hv Hw. constructor; [now apply enc_utext|exact Hw]. Qed.

(* ---- phrases and addresses ---- *)
Definition name_word (v : bytes) : bytes := match v with [] => [32; 34; 34] | _ => [32] ++ enc_word v end.
Definition name_text (l : list bytes) : bytes := concat (map name_word l).
Lemma name_word_start : forall v, exists x, name_word v = 32 :: x.
Proof. intros [|c v]; [exists [34; 34]|exists (enc_word (c :: v))]; reflexivity. Qed.
Lemma name_word_ink : forall v, ends_ink (name_word v).
Proof.
  intros [|c v]; [exists [32; 34], 34; split; [reflexivity|unfold rfc_WSP; lia]|]. unfold name_word, enc_word. change (bs "?=") with ([63] ++ [61]). rewrite !app_assoc. apply ink_one. unfold rfc_WSP. lia.
Qed.
Lemma name_ink : forall l, l <> [] -> ends_ink (name_text l).
Proof.
  intros l. induction l as [|v l IH]; intros Hn; [congruence|]. unfold name_text in *. cbn [map concat]. destruct l as [|w l]; [cbn; rewrite app_nil_r; apply name_word_ink|]. apply ink_app. apply IH. discriminate.
Qed.
Section Addresses.
Context (m : bool) (EW : bytes -> bytes -> Prop) (b : bool).
Hypothesis HW : forall v, v <> [] -> utf8_text v -> EW (enc_word v) v.
Lemma name_word_clear : forall (EW' : bytes -> bytes -> Prop), (forall v, v <> [] -> utf8_text v -> EW' (enc_word v) v) -> forall v, utf8_text v -> clear_word m EW' (name_word v) v.
Proof.
  intros EW' H v Hv. destruct v as [|c v].
  - apply clear_quoted. change (name_word []) with ([32] ++ [34] ++ [] ++ [34] ++ []). constructor; [apply oCFWS_some; eapply CFWS_fws; exact space_FWS|eapply qbody_end; constructor|constructor].
  - unfold name_word. eapply clear_encoded; [|apply H; [discriminate|exact Hv]]. econstructor. exact space_FWS.
Qed.
Lemma name_clear : forall (EW' : bytes -> bytes -> Prop), (forall v, v <> [] -> utf8_text v -> EW' (enc_word v) v) -> forall l, utf8_name l -> clear_phrase m EW' (name_text l) l.
Proof.
  intros EW' H l [Hn Hl]. induction Hl as [|v l Hv Hl IH]; [congruence|]. unfold name_text in *. cbn [map concat]. destruct l as [|w l].
  - cbn [map concat]. rewrite app_nil_r. constructor. now apply name_word_clear.
  - apply clear_phrase_more; [now apply name_word_clear| |apply IH; discriminate]. intros a x y d _ E [_ Y]. cbn [map concat] in E. destruct (name_word_start w) as [z Z]. rewrite Z in E. injection E as <- _. unfold rfc_atext, rfc_ALPHA, rfc_DIGIT in Y. cbn [In] in Y. lia.
Qed.
Lemma box_text : forall x, utf8_mailbox x -> exists c, clear_mailbox m b EW c x /\ ends_ink c.
Proof.
  intros [[n|] a] [H1 H2]; cbn [m_name m_address] in *; destruct (some_address a H1) as [c Hc]; (eexists; split; [|]).
  - apply clear_named; [apply name_clear; [exact HW|exact H2]|]. apply (angle_written b [32] c a); [repeat constructor|exact Hc].
  - change (bs ">") with [62]. rewrite !app_assoc. apply ink_one. unfold rfc_WSP. lia.
  - apply clear_angle. exact (angle_written b [] c a (Forall_nil _) Hc).
  - change (bs ">") with [62]. rewrite !app_assoc. apply ink_one. unfold rfc_WSP. lia.
Qed.
Lemma commas_text : forall A (P : bytes -> A -> Prop) (W : A -> Prop), (forall a, W a -> exists c, P c a /\ ends_ink c) -> forall l, some_of W l -> exists c, comma_list P c l /\ ends_ink c.
Proof.
  intros A P W H l [Hn Hl]. induction Hl as [|a l Ha Hl IH]; [congruence|]. destruct (H a Ha) as (c & Hc & Hi). destruct l as [|a' l].
  - exists c. split; [now constructor|exact Hi].
  - destruct IH as (cs & Hcs & His); [discriminate|]. exists (c ++ bs "," ++ cs). split; [now constructor|now do 2 apply ink_app].
Qed.
Lemma target_text : forall x, utf8_recipient x -> exists c, clear_address m b EW c x /\ ends_ink c.
Proof.
  intros [x|[n l]] H; cbn in H.
  - destruct (box_text x H) as (c & Hc & Hi). exists c. split; [now constructor|exact Hi].
  - destruct H as [Hn Hl]. assert (G : exists c, clear_group_list m b EW c l).
    { destruct l as [|x l]; [exists []; apply clear_group_empty; constructor|]. destruct (commas_text _ _ _ box_text (x :: l)) as (c & Hc & _); [split; [discriminate|exact Hl]|]. exists c. now constructor. }
    destruct G as [c Hc]. exists (name_text n ++ [58] ++ c ++ [59] ++ []). split; [apply clear_address_group; [|exact Hc|constructor]|rewrite app_nil_r, !app_assoc; apply ink_one; unfold rfc_WSP; lia].
    apply name_clear; [|exact Hn]. intros v Hv Hu. split; [now apply HW|now apply enc_atext].
Qed.
Lemma boxes_text : forall l, some_of utf8_mailbox l -> exists c, tidily (clear_mailbox_list m b EW) c l.
Proof. intros l H. destruct (commas_text _ _ _ box_text l H) as (c & Hc & Hi). exists c. now apply tidily_ink. Qed.
Lemma one_box_text : forall x, utf8_mailbox x -> exists c, tidily (clear_mailbox m b EW) c x.
Proof. intros x H. destruct (box_text x H) as (c & Hc & Hi). exists c. now apply tidily_ink. Qed.
Lemma targets_text : forall l, some_of utf8_recipient l -> exists c, tidily (clear_address_list m b EW) c l.
Proof. intros l H. destruct (commas_text _ _ _ target_text l H) as (c & Hc & Hi). exists c. now apply tidily_ink. Qed.
Lemma blind_text : forall l, Forall utf8_recipient l -> exists c, tidily (clear_bcc m b EW) c l.
Proof.
  intros [|a l] H; [exact (bcc_text m EW b [] (Forall_nil _))|]. destruct (targets_text (a :: l)) as (c & Hc & Ht); [split; [discriminate|exact H]|]. exists c. split; [now constructor|exact Ht].
Qed.
Lemma words_text : forall l, l <> [] -> Forall utf8_name l -> exists c, tidily (clear_keywords m EW) c l.
Proof.
  intros l Hn H. destruct (commas_text _ (clear_phrase m EW) utf8_name) with (l := l) as (c & Hc & Hi); [|split; assumption|exists c; now apply tidily_ink].
  intros a Ha. exists (name_text a). split; [now apply name_clear|apply name_ink, Ha].
Qed.
Lemma utf8_resent_text : forall t, utf8_resent b t -> exists c, clear_resent m b EW c t.
Proof.
  intros [d|l|x|l|l|l|i] H; cbn in H.
  - destruct (date_text d H) as [c Hc]. eexists. constructor. apply header_text. exact Hc.
  - destruct (boxes_text l H) as [c Hc]. eexists. constructor. apply header_text. exact Hc.
  - destruct (one_box_text x H) as [c Hc]. eexists. constructor. apply header_text. exact Hc.
  - destruct (targets_text l H) as [c Hc]. eexists. constructor. apply header_text. exact Hc.
  - destruct (targets_text l H) as [c Hc]. eexists. constructor. apply header_text. exact Hc.
  - destruct (blind_text l H) as [c Hc]. eexists. constructor. apply header_text. exact Hc.
  - destruct (msg_id_text b i H) as [c Hc]. eexists. constructor. apply header_text. exact Hc.
Qed.
End Addresses.
Lemma enc_env : forall E, f_mime E = true -> forall v, v <> [] -> utf8_text v -> encoded E (enc_word v) v.
Proof. intros E HM v Hn Hv. split; [exact HM|now apply enc_encoded]. Qed.
Lemma utf8_block_text : forall E t, f_mime E = true -> utf8_block (f_compatibility_fixes E) t -> exists c, clear_block E c (trace_header t).
Proof.
  intros E [[p r] l] HM (Hp & [Hn Hr] & Hl). cbn [trace_header].
  destruct (many_text _ (rfc_header "Received" (tidily (clear_received (f_compatibility_fixes E)))) received_ok) with (l := r) as [c2 H2];
    [intros a Ha; destruct (received_text (f_compatibility_fixes E) a Ha) as [c Hc]; eexists; apply header_text; exact Hc|exact Hr|].
  destruct (many_text _ _ _ (utf8_resent_text (f_mime E) (encoded E) (f_compatibility_fixes E) (enc_env E HM)) l Hl) as [c3 H3].
  assert (X : exists c1, clear_return (f_compatibility_fixes E) c1 p).
  { destruct p as [p|]; [|eexists; constructor]. destruct (path_text (f_compatibility_fixes E) p) as [c Hc]; [destruct p; exact Hp|]. eexists. constructor. apply header_text. exact Hc. }
  destruct X as [c1 H1]. eexists. econstructor; eauto.
Qed.
Lemma utf8_blocks_text : forall E ts, f_mime E = true -> Forall (utf8_block (f_compatibility_fixes E)) ts -> parted ts -> exists c, clear_blocks E c (map trace_header ts).
Proof.
  intros E ts HM H P. induction P as [|t|p r l p' r' l' ts HP P IH].
  - exists []. constructor.
  - apply Forall_inv in H. destruct (utf8_block_text E t HM H) as [c Hc]. eexists. cbn [map]. econstructor; [exact Hc| |constructor]. destruct t as [[p r] l]. exact I.
  - apply Forall_inv in H as Ht. apply Forall_inv_tail in H. destruct (IH H) as [cs Hcs]. destruct (utf8_block_text E _ HM Ht) as [c Hc]. eexists. cbn [map]. econstructor; [exact Hc| |exact Hcs]. exact HP.
Qed.

(* ---- parameters ---- *)
Definition starred (n : bytes) : bool := existsb (N.eqb 42) n.
Lemma starred_in : forall n, starred n = true <-> In 42 n.
Proof.
  intros n. unfold starred. rewrite existsb_exists. split; [intros (x & Hx & E); apply N.eqb_eq in E; now subst|]. intros H. exists 42. split; [exact H|reflexivity].
Qed.
Definition out_param (x : bytes * bytes) : param := let '(n, v) := x in if starred n then (n, None, false, v) else (n, Some 0, true, bs "utf-8''" ++ percent_text v).
Definition out_name (n : bytes) : bytes := if starred n then n else n ++ (bs "*" ++ bs "0") ++ bs "*".
Definition out_value (n v : bytes) : bytes := if starred n then [34] ++ escaped v ++ [34] else bs "utf-8''" ++ percent_text v.
Definition out_text (x : bytes * bytes) : bytes := let '(n, v) := x in [] ++ bs ";" ++ bs " " ++ out_name n ++ bs "=" ++ out_value n v.
Lemma plain_name_indexed : forall n, lower_token n -> ~ In 42 n -> indexed_param_name n (map fold_case n, None, false).
Proof.
  intros n [[Hn Ht] _] H. rewrite <- (app_nil_r n) at 1. apply (indexed_intro n [] None false); [|constructor]. split; [exact Hn|]. apply Forall_forall. intros x Hx. unfold chars in Ht. rewrite Forall_forall in Ht. split; [auto|]. now intros ->.
Qed.
Lemma out_pieces : forall n v, parameter_value n v -> exists a i e w, out_param (n, v) = (a, i, e, w) /\ a = n /\ clear_param_name (out_name n) (a, i, e) /\ clear_param_value (out_value n v) w.
Proof.
  intros n v [Hn H]. pose proof Hn as [Ht Hf]. unfold out_param, out_name, out_value. destruct (starred n) eqn:S.
  - apply starred_in in S. destruct H as [[N _]|[N Hv]]; [now exfalso|]. exists n, None, false, v. split; [reflexivity|]. split; [reflexivity|]. split; [|constructor; apply quoting_qbody; now apply escaped_quoting].
    rewrite <- Hf at 2. now apply clear_unindexed.
  - assert (N : ~ In 42 n) by (rewrite <- starred_in; congruence). assert (U : utf8_text v). { destruct H as [[_ U]|[X _]]; [exact U|]. exfalso. exact (X _ (plain_name_indexed n Hn N)). }
    exists n, (Some 0), true, (bs "utf-8''" ++ percent_text v). split; [reflexivity|]. split; [reflexivity|]. split.
    + rewrite <- Hf at 2. apply clear_indexed. apply (indexed_intro n (bs "*" ++ bs "0") (Some 0) true).
      * pose proof (plain_name_indexed n Hn N) as X. destruct Ht as [H1 H2]. split; [exact H1|]. apply Forall_forall. intros x Hx. unfold chars in H2. rewrite Forall_forall in H2. split; [auto|]. now intros ->.
      * constructor; [split; [discriminate|repeat constructor; vm_compute; discriminate]|reflexivity].
    + constructor. split; [discriminate|]. apply Forall_app. split; [|now apply percent_text_encodes, utf8_wf]. apply Forall_forall. intros x Hx. vm_compute in Hx. apply token_char_iff. lia.
Qed.
Fixpoint firsts (l : list (bytes * bytes)) : list (bytes * bytes) :=
  match l with [] => [] | (n, v) :: l => (n, v) :: filter (fun x => negb (bytes_eqb n (fst x))) (firsts l) end.
Lemma get_filter : forall k l n, map_get (filter (fun x : bytes * bytes => negb (bytes_eqb k (fst x))) l) n = if bytes_eqb k n then None else map_get l n.
Proof.
  intros k l n. induction l as [|[a v] l IH]; cbn [filter map_get fst]; [destruct (bytes_eqb k n); reflexivity|]. destruct (bytes_eqb k a) eqn:A; cbn [negb].
  - apply bytes_eqb_eq in A. subst a. rewrite IH. destruct (bytes_eqb k n) eqn:B; [reflexivity|]. destruct (bytes_eqb n k) eqn:C; [|reflexivity]. apply bytes_eqb_eq in C. subst. rewrite bytes_eqb_refl in B. discriminate.
  - cbn [map_get]. rewrite IH. destruct (bytes_eqb n a) eqn:B; [|reflexivity]. apply bytes_eqb_eq in B. subst a. now rewrite A.
Qed.
Lemma get_firsts : forall l n, map_get (firsts l) n = map_get l n.
Proof.
  induction l as [|[a v] l IH]; intros n; [reflexivity|]. cbn [firsts map_get]. destruct (bytes_eqb n a) eqn:A; [reflexivity|]. rewrite get_filter, IH. destruct (bytes_eqb a n) eqn:B; [|reflexivity]. apply bytes_eqb_eq in B. subst. rewrite bytes_eqb_refl in A. discriminate.
Qed.
Lemma firsts_nodup : forall l, NoDup (map fst (firsts l)).
Proof.
  induction l as [|[a v] l IH]; [constructor|]. cbn [firsts map fst]. constructor.
  - intros H. apply in_map_iff in H as ([b w] & <- & H). apply filter_In in H as [_ H]. cbn [fst] in H. now rewrite bytes_eqb_refl in H.
  - clear - IH. induction (firsts l) as [|[b w] k IH2]; [constructor|]. cbn [filter map fst] in *. apply NoDup_cons_iff in IH as [H1 H2]. destruct (bytes_eqb a b); cbn [negb]; [auto|]. cbn [map fst]. constructor; [|auto].
    intros H. apply H1. apply in_map_iff in H as (x & <- & H). apply filter_In in H as [H _]. now apply in_map.
Qed.
Lemma nodup_get : forall l n v, NoDup (map fst l) -> In (n, v) l -> map_get l n = Some (v : bytes).
Proof.
  induction l as [|[a w] l IH]; intros n v Hd H; [destruct H|]. cbn [map fst] in Hd. apply NoDup_cons_iff in Hd as [H1 H2]. cbn [map_get]. destruct H as [[= -> ->]|H]; [now rewrite bytes_eqb_refl|].
  destruct (bytes_eqb n a) eqn:A; [|auto]. apply bytes_eqb_eq in A. subst. exfalso. apply H1. now apply (in_map fst) in H.
Qed.
Lemma get_in : forall (l : list (bytes * bytes)) n v, map_get l n = Some v -> In (n, v) l.
Proof. induction l as [|[a w] l IH]; intros n v H; [discriminate|]. cbn [map_get] in H. destruct (bytes_eqb n a) eqn:A; [apply bytes_eqb_eq in A; subst; injection H as ->; now left|right; auto]. Qed.
Lemma out_segments : forall l n, NoDup (map fst l) ->
  segments_of (map out_param l) n = match map_get l n with Some v => if starred n then [] else [(0, (true, bs "utf-8''" ++ percent_text v))] | None => [] end /\
  values_of (map out_param l) n = match map_get l n with Some v => if starred n then [v] else [] | None => [] end.
Proof.
  intros l n. induction l as [|[a v] l IH]; intros H; [split; reflexivity|]. cbn [map fst] in H. apply NoDup_cons_iff in H as [H1 H2]. destruct (IH H2) as [I1 I2]. unfold segments_of, values_of in *. cbn [map concat map_get]. rewrite I1, I2.
  unfold out_param. destruct (bytes_eqb n a) eqn:A.
  - apply bytes_eqb_eq in A. subst a. assert (G : map_get l n = None). { destruct (map_get l n) as [w|] eqn:G; [|reflexivity]. exfalso. apply H1. apply get_in in G. now apply (in_map fst) in G. }
    rewrite G. destruct (starred n); rewrite bytes_eqb_refl; split; reflexivity.
  - destruct (starred a); rewrite A; split; reflexivity.
Qed.
Lemma params_text : forall E l, parameters_value l -> exists xs, Forall (fun x => parameter_value (fst x) (snd x)) xs /\ segments_ok E (map out_param xs) /\
  (Forall param_ok (map out_param xs) -> params_value (textcode E) (map out_param xs) l).
Proof.
  intros E l H. exists (firsts l). pose proof (firsts_nodup l) as Hd. split; [|split].
  - apply Forall_forall. intros [n v] Hx. apply H. rewrite <- get_firsts. cbn [fst snd]. now apply nodup_get.
  - intros _ n. rewrite segment_lookup. destruct (out_segments (firsts l) n Hd) as [-> _]. destruct (map_get (firsts l) n); [|reflexivity]. destruct (starred n); reflexivity.
  - intros Hok n. apply (stands_value E 255); [exact Hok|]. rewrite <- get_firsts. destruct (out_segments (firsts l) n Hd) as [S V]. destruct (map_get (firsts l) n) as [v|] eqn:G.
    + destruct (starred n) eqn:T.
      * replace (Some v) with (last_of (values_of (map out_param (firsts l)) n)) by (rewrite V; reflexivity). now apply stands_plain.
      * rewrite get_firsts in G. apply H in G. destruct G as [Hn G]. assert (N : ~ In 42 n) by (rewrite <- starred_in; congruence). assert (U : utf8_text v). { destruct G as [[_ U]|[X _]]; [exact U|]. exfalso. exact (X _ (plain_name_indexed n Hn N)). }
        apply (stands_cut 255 _ n [(true, bs "utf-8''" ++ percent_text v)] v); [rewrite S; reflexivity| |cbn; lia].
        rewrite <- (app_nil_r v) at 2. change (bs "utf-8''" ++ percent_text v) with (bs "utf-8" ++ bs "'" ++ [] ++ bs "'" ++ percent_text v).
        apply cut_encoded; auto; [reflexivity|now apply percent_text_encodes, utf8_wf|constructor].
    + replace (@None bytes) with (last_of (values_of (map out_param (firsts l)) n)); [now apply stands_plain|]. now rewrite V.
Qed.
Lemma out_params : forall xs, Forall (fun x => parameter_value (fst x) (snd x)) xs -> many_of clear_param (concat (map out_text xs)) (map out_param xs).
Proof.
  intros xs H. induction H as [|[n v] xs Hx _ IH]; [constructor|]. cbn [map concat]. constructor; [|exact IH]. cbn [fst snd] in Hx. destruct (out_pieces n v Hx) as (a & i & e & w & -> & _ & Hn & Hv).
  unfold out_text. constructor; [constructor|apply oCFWS_some; eapply CFWS_fws; exact space_FWS|exact Hn|exact Hv].
Qed.
Lemma out_ok : forall xs, Forall (fun x => parameter_value (fst x) (snd x)) xs -> Forall param_ok (map out_param xs).
Proof. intros xs H. eapply many_param_ok, many_of_impl; [exact (out_params xs H)|]. intros. now apply clear_param_rfc. Qed.
Lemma out_items : forall xs, Forall (fun x => parameter_value (fst x) (snd x)) xs -> many_of clear_disposition_item (concat (map out_text xs)) (map DParam (map out_param xs)).
Proof.
  intros xs H. induction H as [|[n v] xs Hx _ IH]; [constructor|]. cbn [map concat]. constructor; [|exact IH]. cbn [fst snd] in Hx. destruct (out_pieces n v Hx) as (a & i & e & w & -> & _ & Hn & Hv).
  unfold out_text. apply clear_item_param; [constructor|apply oCFWS_some; eapply CFWS_fws; exact space_FWS|exact Hn|exact Hv|].
  intros name Hname X. assert (S : In 42 (out_name n)) by (unfold out_name; destruct (starred n) eqn:T; [now apply starred_in|apply in_or_app; right; now left]).
  apply (in_map fold_case) in S. rewrite X in S. cbn [disposition_names In] in Hname. repeat destruct Hname as [<-|Hname]; try easy; vm_compute in S; lia.
Qed.
(* ---- types ---- *)
Lemma keyword_text : forall A (table : list (bytes * A)) other a, ((exists n, In (n, a) table) \/ exists n, a = other n /\ other_keyword table n) -> (forall n x, In (n, x) table -> map fold_case n = n) ->
  exists c, clear_keyword table other c a.
Proof.
  intros A table other a [[n H]|(n & -> & [[Ht Hf] Hp])] HL; [exists n; eapply clear_known; [exact H|reflexivity]|]. exists n. rewrite <- Hf at 2. apply clear_other; [exact Ht|].
  intros k x y z Hk -> S. apply (Hp k x (map fold_case z) Hk). transitivity (map fold_case y ++ map fold_case z); [rewrite <- map_app; symmetry; exact Hf|]. f_equal. exact (eq_trans S (HL _ _ Hk)).
Qed.
Lemma type_text : forall t, type_name t -> exists c, clear_keyword mime_types CUnknown c t.
Proof.
  intros t H. apply keyword_text.
  - destruct t; cbn in H; [left; eexists; cbn; eauto 10..|right; eauto].
  - intros n x Hn. cbn in Hn. repeat (destruct Hn as [[= <- <-]|Hn]; [reflexivity|]). destruct Hn.
Qed.
Lemma kind_text : forall t, disposition_name t -> exists c, clear_keyword mime_dispositions DUnknown c t.
Proof.
  intros t H. apply keyword_text.
  - destruct t; cbn in H; [left; eexists; cbn; eauto 10..|right; eauto].
  - intros n x Hn. cbn in Hn. repeat (destruct Hn as [[= <- <-]|Hn]; [reflexivity|]). destruct Hn.
Qed.
Lemma content_type_text : forall E t s l, type_name t -> lower_token s -> parameters_value l -> exists c, clear_content_type E c (t, s, l).
Proof.
  intros E t s l Ht [Hs Hf] Hl. destruct (type_text t Ht) as [c Hc]. destruct (params_text E l Hl) as (xs & H1 & H2 & H3).
  exists ([] ++ c ++ bs "/" ++ s ++ concat (map out_text xs) ++ []). rewrite <- Hf at 2. eapply clear_content_type_intro; [constructor|exact Hc|exact Hs|exact (out_params xs H1)|exact H2|exact (H3 (out_ok xs H1))|exact no_inline].
Qed.
Lemma optional_item : forall A (W : A -> Prop) (F : A -> disposition_item) o, optional_value true W o -> (forall a, W a -> exists c, clear_disposition_item c (F a)) ->
  exists c, many_of clear_disposition_item c (map F (opt_list o)).
Proof.
  intros A W F [a|] H HF; [|exists []; constructor]. destruct H as [_ H]. destruct (HF a H) as [c Hc]. exists (c ++ []). cbn. constructor; [exact Hc|constructor].
Qed.
Lemma date_item : forall d, date_in_range d -> exists c, rfc_date_value c d.
Proof. intros d H. destruct (date_text d H) as [c [Hc _]]. eauto. Qed.
Lemma last_opt : forall A B (f : A -> option B) l l', (forall a, In a l' -> f a = None) -> last_some f (l ++ l') = last_some f l.
Proof.
  intros A B f l l' H. rewrite last_some_app. replace (last_some f l') with (@None B); [reflexivity|]. symmetry. induction l' as [|a l' IH]; [reflexivity|]. cbn [last_some]. rewrite IH by (intros; apply H; now right). apply H. now left.
Qed.
Lemma disposition_text : forall E d, disposition_range d -> exists c, clear_disposition E c d.
Proof.
  intros E d [D1 D2 D3 D4 D5 D6]. destruct (kind_text _ D1) as [c Hc]. destruct (params_text E _ D6) as (xs & H1 & H2 & H3).
  destruct (optional_item _ _ DFilename _ D2) as [c2 H2']; [intros v Hv; eexists; apply (clear_filename [] (bs " ") (bs "filename")); [constructor|apply oCFWS_some; eapply CFWS_fws; exact space_FWS|reflexivity|]; apply clear_value_quoted, quoting_qbody, escaped_quoting; exact Hv|].
  destruct (optional_item _ _ DCreation _ D3) as [c3 H3']; [intros v Hv; destruct (date_item v Hv) as [x Hx]; eexists; apply (clear_creation [] (bs " ") (bs "creation-date")); [constructor|apply oCFWS_some; eapply CFWS_fws; exact space_FWS|reflexivity|exact Hx]|].
  destruct (optional_item _ _ DModification _ D4) as [c4 H4']; [intros v Hv; destruct (date_item v Hv) as [x Hx]; eexists; apply (clear_modification [] (bs " ") (bs "modification-date")); [constructor|apply oCFWS_some; eapply CFWS_fws; exact space_FWS|reflexivity|exact Hx]|].
  destruct (optional_item _ _ DRead _ D5) as [c5 H5']; [intros v Hv; destruct (date_item v Hv) as [x Hx]; eexists; apply (clear_read [] (bs " ") (bs "read-date")); [constructor|apply oCFWS_some; eapply CFWS_fws; exact space_FWS|reflexivity|exact Hx]|].
  set (its := map DFilename (opt_list (disp_filename d)) ++ map DCreation (opt_list (disp_creation_date d)) ++ map DModification (opt_list (disp_modification_date d)) ++ map DRead (opt_list (disp_read_date d)) ++ map DParam (map out_param xs)).
  assert (PI : params_of its = map out_param xs).
  { unfold its, params_of. rewrite !map_app, !concat_app. fold (params_of (map DParam (map out_param xs))). rewrite params_of_DParam. destruct (disp_filename d), (disp_creation_date d), (disp_modification_date d), (disp_read_date d); reflexivity. }
  assert (MI : many_of clear_disposition_item (c2 ++ c3 ++ c4 ++ c5 ++ concat (map out_text xs)) its) by (unfold its; repeat (apply many_of_app; [assumption|]); now apply out_items).
  assert (SO : segments_ok E (params_of its)) by now rewrite PI. assert (PV : params_value (textcode E) (params_of its) (disp_unstructured d)) by (rewrite PI; exact (H3 (out_ok xs H1))).
  pose proof (clear_disposition_intro E [] c _ _ its _ [] (oCFWS_none) Hc MI SO PV no_inline) as X. eexists. replace d with
      {| disposition_type := disposition_type d;
         disp_filename := last_some (fun i => match i with DFilename v => Some v | _ => None end) its;
         disp_creation_date := last_some (fun i => match i with DCreation v => Some v | _ => None end) its;
         disp_modification_date := last_some (fun i => match i with DModification v => Some v | _ => None end) its;
         disp_read_date := last_some (fun i => match i with DRead v => Some v | _ => None end) its;
         disp_unstructured := disp_unstructured d |}; [exact X|].
  assert (NP : forall A (f : disposition_item -> option A) l, (forall p, f (DParam p) = None) -> last_some f (l ++ map DParam (map out_param xs)) = last_some f l).
  { intros A f l Hf. apply last_opt. intros a Ha. apply in_map_iff in Ha as (p & <- & _). apply Hf. }
  unfold its. rewrite !app_assoc. rewrite !NP by reflexivity. destruct d as [k o1 o2 o3 o4 l]. cbn [disposition_type disp_filename disp_creation_date disp_modification_date disp_read_date disp_unstructured]. destruct o1, o2, o3, o4; reflexivity.
Qed.

(* ---- other headers ---- *)
Definition stopper (c : byte) : Prop := c = 61 \/ c = 13 \/ c = 32 \/ c = 9.
Ltac stopped := match goal with |- exists e, tag_no_case ?E ?a ?b ?m ?i = Err e => apply (tag_no_case_err E a b m i); reflexivity end.
Lemma token_stops : forall c r, stopper c -> exists e, token (c :: r) = Err e.
Proof. intros c r H. assert (X : is_token_char c = false) by (unfold stopper in H; repeat destruct H as [->|H]; subst; reflexivity). unfold token, take_while1. rewrite X. cbn. eauto. Qed.
Lemma digit_stops : forall c r, stopper c -> exists e, u8_number (c :: r) = Err e.
Proof. intros c r H. unfold stopper in H. repeat destruct H as [->|H]; subst; vm_compute; eauto. Qed.
Ltac all_stop H := apply match_err; repeat apply Forall_cons; [..|apply Forall_nil]; apply pmap_err; first [apply token_stops; exact H|unfold stopper in H; repeat destruct H as [->|H]; subst; stopped].
Lemma type_stops : forall E c r, stopper c -> exists e, mime_type E (c :: r) = Err e.
Proof. intros E c r H. unfold mime_type. all_stop H. Qed.
Lemma encoding_stops : forall E c r, stopper c -> exists e, encoding_name E (c :: r) = Err e.
Proof. intros E c r H. unfold encoding_name. all_stop H. Qed.
Lemma kind_stops : forall E c r, stopper c -> exists e, disposition_kind E (c :: r) = Err e.
Proof. intros E c r H. unfold disposition_kind. all_stop H. Qed.
Lemma skip_stops : forall x t, x = [] \/ (exists r, x = 61 :: r) -> no_blank t -> exists c r o, stopper c /\ optional cfws (x ++ [32] ++ CRLF ++ t) = Ok (c :: r, o).
Proof.
  intros x t [->|[r ->]] Ht.
  - destruct (ocfws_inline [32] t) as (w & o & Hw & H); [rewrite <- (app_nil_r [32]); apply inline_blank; [repeat constructor|constructor]|now apply no_blank_ends|]. cbn [app] in *. destruct Hw as [|c w Hc Hw].
    + exists 13. eexists. exists o. split; [right; now left|exact H].
    + exists c. eexists. exists o. split; [|exact H]. unfold rfc_WSP in Hc. unfold stopper. lia.
  - destruct (ocfws_before [] 61 (r ++ [32] ++ CRLF ++ t)) as [o H]; [constructor|unfold visible; try (split; reflexivity); unfold rfc_VCHAR; lia|lia|]. exists 61. eexists. exists o. split; [now left|exact H].
Qed.
Lemma mime_header_stops : forall A (E : env) (name : string) n x t (p : parser A), ~ In 58 n -> no_blank t ->
  (without name (n ++ [58] ++ x ++ [32] ++ CRLF ++ t) -> exists e, p (n ++ [58] ++ x ++ [32] ++ CRLF ++ t) = Err e) ->
  (same_nocase n (bs name) -> exists e, p (n ++ [58] ++ x ++ [32] ++ CRLF ++ t) = Err e) -> ~ In 58 (bs name) ->
  exists e, p (n ++ [58] ++ x ++ [32] ++ CRLF ++ t) = Err e.
Proof.
  intros A E name n x t p Hn Ht H1 H2 Hc. destruct (starts_nocase (n ++ [58] ++ x ++ [32] ++ CRLF ++ t) (bs name ++ [58])) eqn:S; [|now apply H1].
  apply starts_nocase_spec in S as (m & r & X & H). apply name_colon in H as (k & -> & Hk). rewrite <- app_assoc in X. apply colon_unique in X as [-> _]; [auto|exact Hn|eapply fold_nocolon; eauto].
Qed.
Definition shown (E : env) (v : bytes) : bytes := if f_unrecognized_headers E then enc_text v else v.
Lemma enc_head : forall v, enc_text v = [] \/ exists r, enc_text v = 61 :: r.
Proof. intros [|c v]; [now left|right]. eexists. reflexivity. Qed.
Lemma shown_text : forall E u, utf8_unknown E u -> text_line (shown E (snd u)) /\ clear_text_value (f_unrecognized_headers E) (textcode E) (shown E (snd u) ++ [32]) (snd u).
Proof.
  intros E [n v] (_ & H & _). unfold shown. cbn [snd] in *. destruct (f_unrecognized_headers E); cbn [clear_text_value].
  - split; [now apply enc_line|]. apply enc_clear; [exact H|repeat constructor].
  - split; [exact H|]. now apply line_text.
Qed.
Lemma shown_value : forall E u, utf8_unknown E u -> unknown_value E (fst u, shown E (snd u)).
Proof. intros E u H. destruct (shown_text E u H) as [T _]. destruct H as (H1 & _ & H2 & H3 & _). split; [exact H1|]. cbn [fst snd]. auto. Qed.
Ltac tag_in nm := match goal with |- exists e, (let* _ := tag_no_case ?E ?e1 ?e2 ?m _ in _) = _ => rewrite (name_tag E nm e1 e2 m) by (auto; reflexivity) end; cbn [bind].
Lemma unknown_mime_read : forall E n v t, f_mime E = true -> utf8_unknown E (n, v) -> unclaimed E (n, v) -> no_blank t ->
  any_field E (unknown_line (n, shown E v) ++ t) = Ok (t, FUnknown n v).
Proof.
  intros E n v t HM HU HN Ht. destruct (shown_text E (n, v) HU) as [Hv HT]. cbn [fst snd] in *. set (x := shown E v) in *. destruct HU as (Hn & _ & Hs & Hc & Hd). cbn [fst snd] in *.
  pose proof (ftext_colon n (proj2 Hn)) as Nc. rewrite any_field_split.
  assert (SK : f_unrecognized_headers E = true -> exists c r o, stopper c /\ optional cfws (x ++ [32] ++ CRLF ++ t) = Ok (c :: r, o)).
  { intros F. apply skip_stops; [|exact Ht]. unfold x, shown. rewrite F. apply enc_head. }
  assert (UL : unknown_line (n, x) ++ t = n ++ [58] ++ x ++ [32] ++ CRLF ++ t) by (unfold unknown_line; cbn [fst snd]; rewrite <- !app_assoc; reflexivity).
  destruct (match_err _ (structured_parsers E) (unknown_line (n, x) ++ t)) as [e ->].
  - unfold structured_parsers. repeat (apply Forall_cfg; [let F := fresh "F" in intros F|]).
    + stops "Date"%string strict_date.
    + stops "From"%string strict_mailboxes.
    + stops "Sender"%string strict_mailbox.
    + stops "Reply-To"%string strict_addresses.
    + stops "To"%string strict_addresses.
    + stops "Cc"%string strict_addresses.
    + stops "Bcc"%string strict_bcc.
    + stops "Message-ID"%string strict_id.
    + stops "In-Reply-To"%string strict_ids.
    + stops "References"%string strict_ids.
    + apply pmap_err. rewrite UL. apply header_without with (name := "Subject"%string); [reflexivity|reflexivity|]. apply named_without; [exact Nc|no_colon|auto].
    + apply pmap_err. rewrite UL. apply header_without with (name := "Comments"%string); [reflexivity|reflexivity|]. apply named_without; [exact Nc|no_colon|auto].
    + apply pmap_err. rewrite UL. apply (mime_header_stops _ E "MIME-Version"); auto; [apply mime_version_none| |no_colon]. intros X. destruct HN as [F'|HN]; [|exfalso; apply (HN "MIME-Version"%string); [in_list|exact X]].
      destruct (SK F') as (c & r & o & Hst & K). unfold mime_version. tag_in "MIME-Version"%string. rewrite K. cbn [bind]. destruct (digit_stops c r Hst) as [e ->]. cbn. eauto.
    + apply pmap_err. rewrite UL. apply (mime_header_stops _ E "Content-Type"); auto; [apply content_type_none| |no_colon]. intros X. destruct HN as [F'|HN]; [|exfalso; apply (HN "Content-Type"%string); [in_list|exact X]].
      destruct (SK F') as (c & r & o & Hst & K). unfold content_type. tag_in "Content-Type"%string. rewrite K. cbn [bind]. destruct (type_stops E c r Hst) as [e ->]. cbn. eauto.
    + apply pmap_err. rewrite UL. apply (mime_header_stops _ E "Content-Transfer-Encoding"); auto; [apply encoding_none| |no_colon]. intros X. destruct HN as [F'|HN]; [|exfalso; apply (HN "Content-Transfer-Encoding"%string); [in_list|exact X]].
      destruct (SK F') as (c & r & o & Hst & K). unfold content_transfer_encoding. tag_in "Content-Transfer-Encoding"%string. rewrite K. cbn [bind]. destruct (encoding_stops E c r Hst) as [e ->]. cbn. eauto.
    + apply pmap_err. rewrite UL. apply (mime_header_stops _ E "Content-ID"); auto; [apply content_id_none| |no_colon]. intros X. unfold content_id. tag_in "Content-ID"%string.
      pose proof (strict_stops _ (message_id E) x t "TAG ERROR: A header (`Content-ID` in this case) must end with a CRLF sequence." (strict_id E) Hv Ht) as Y. rewrite <- !app_assoc in Y. exact Y.
    + apply pmap_err. rewrite UL. apply content_description_none. apply named_without; [exact Nc|no_colon|exact Hd].
    + apply pmap_err. rewrite UL. apply (mime_header_stops _ E "Content-Disposition"); auto; [apply content_disposition_none| |no_colon]. intros X. destruct HN as [F'|HN]; [|exfalso; apply (HN "Content-Disposition"%string); [in_list|exact X]].
      destruct (SK F') as (c & r & o & Hst & K). unfold content_disposition. tag_in "Content-Disposition"%string. rewrite K. cbn [bind]. destruct (kind_stops E c r Hst) as [e ->]. cbn. eauto.
    + rewrite <- (app_nil_r (cfg _ _)). apply Forall_cfg; [|constructor]. intros F. stops "Keywords"%string strict_keywords.
  - cbn [match_parsers]. unfold pmap. rewrite UL. rewrite (app_assoc x).
    rewrite (unknown_forward E n (x ++ [32]) v t Hn); [reflexivity|exact HT|now apply no_blank_ends].
Qed.

(* ---- the headers of an email ---- *)
Definition type_header (x : content_type_t * bytes * list (bytes * bytes)) : field := let '(t, s, l) := x in FContentType t s l.
Definition mime_headers (r : raw_entity_t) : list field :=
  map type_header [(e_mime_type r, e_subtype r, e_parameters r)] ++ map FContentDescription (opt_list (e_description r)) ++ map FContentId (opt_list (e_id r)) ++
  map FContentDisposition (opt_list (e_disposition r)).
Definition mime_header_of (E : env) (c : bytes) (f : field) : Prop :=
  clear_field E c f \/ exists u, utf8_unknown E u /\ unclaimed E u /\ c = unknown_line (fst u, shown E (snd u)) /\ f = unknown_header u.
Lemma known_mime_text : forall E e, f_mime E = true -> mime_mail_value E e -> Forall (fun f => exists c, clear_field E c f) (known_headers E e).
Proof.
  intros E e HM H. unfold known_headers. repeat (apply Forall_app; split).
  - pose proof (mv_date E e H) as V. apply (optional_text _ E (f_date E) date_in_range); [destruct (f_date E); [destruct V as (d & -> & V); cbn; auto|rewrite V; exact I]|write date_text].
  - pose proof (mv_from E e H) as V. destruct (f_from E) eqn:F; cbn; [|constructor]. constructor; [|constructor]. destruct (boxes_text (f_mime E) (encoded E) (f_compatibility_fixes E) (enc_env E HM) _ V) as [c Hc].
    eexists. apply clear_from; [exact F|apply header_text; exact Hc].
  - pose proof (mv_sender E e H) as V. apply (optional_text _ E (f_sender E) utf8_mailbox); [destruct (f_sender E); [destruct V as (d & -> & V); cbn; auto|rewrite V; exact I]|write (one_box_text (f_mime E) (encoded E) (f_compatibility_fixes E) (enc_env E HM))].
  - apply (optional_text _ E _ _ _ _ (mv_reply_to E e H)). write (targets_text (f_mime E) (encoded E) (f_compatibility_fixes E) (enc_env E HM)).
  - apply (optional_text _ E _ _ _ _ (mv_to E e H)). write (targets_text (f_mime E) (encoded E) (f_compatibility_fixes E) (enc_env E HM)).
  - apply (optional_text _ E _ _ _ _ (mv_cc E e H)). write (targets_text (f_mime E) (encoded E) (f_compatibility_fixes E) (enc_env E HM)).
  - apply (optional_text _ E _ _ _ _ (mv_bcc E e H)). write (blind_text (f_mime E) (encoded E) (f_compatibility_fixes E) (enc_env E HM)).
  - apply (optional_text _ E _ _ _ _ (mv_message_id E e H)). write msg_id_text.
  - apply (optional_text _ E _ _ _ _ (mv_in_reply_to E e H)). write msg_ids_text.
  - apply (optional_text _ E _ _ _ _ (mv_references E e H)). write msg_ids_text.
  - apply (optional_text _ E _ _ _ _ (mv_subject E e H)). intros a F Ha. eexists. apply clear_subject; [exact F|]. apply header_text. rewrite HM. exact (enc_clear _ a [] Ha (Forall_nil _)).
  - destruct (mv_comments E e H) as [V N]. destruct (f_comments E) eqn:F; [|rewrite N by reflexivity; constructor]. apply Forall_map. eapply Forall_impl; [|exact V]. intros a Ha. eexists.
    apply clear_comments; [exact F|]. apply header_text. rewrite HM. exact (enc_clear _ a [] Ha (Forall_nil _)).
  - destruct (mv_keywords E e H) as [V N]. destruct (f_keywords E) eqn:F; [|rewrite N by reflexivity; constructor]. destruct (keywords e) as [|k l] eqn:K; cbn; constructor; [|constructor].
    destruct (words_text (f_mime E) (encoded E) (enc_env E HM) (k :: l)) as [c Hc]; [discriminate|exact V|]. eexists. apply clear_keywords_field; [exact F|]. apply header_text. exact Hc.
Qed.
Lemma mime_headers_text : forall E r, f_mime E = true -> entity_value (f_compatibility_fixes E) r -> Forall (fun f => exists c, clear_field E c f) (mime_headers r).
Proof.
  intros E r HM [T1 T2 T3 T4 T5 T6 T7 T8]. unfold mime_headers. repeat (apply Forall_app; split).
  - constructor; [|constructor]. destruct (content_type_text E _ _ _ T1 T2 T5) as [c Hc]. eexists. apply clear_content_type_field; [exact HM|]. apply header_text. exact Hc.
  - apply (optional_text _ E _ _ _ _ T3). intros a _ Ha. eexists. apply clear_content_description; [exact HM|]. apply header_text. exact (enc_clear _ a [] Ha (Forall_nil _)).
  - apply (optional_text _ E _ _ _ _ T4). intros a _ Ha. destruct (msg_id_text _ a Ha) as [c Hc]. eexists. apply clear_content_id; [exact HM|]. apply header_text. exact Hc.
  - apply (optional_text _ E _ _ _ _ T6). intros a _ Ha. destruct (disposition_text E a Ha) as [c Hc]. eexists. apply clear_content_disposition; [exact HM|]. apply header_text. exact Hc.
Qed.
Lemma mime_header_starts : forall E c f i, mime_header_of E c f -> starts_header (c ++ i).
Proof.
  intros E c f i [H|([n v] & (Hn & _) & _ & -> & _)]; [eapply clear_field_starts; eauto|]. unfold unknown_line. cbn [fst snd] in *. exists n. eexists. rewrite <- !app_assoc. split; [reflexivity|exact Hn].
Qed.
Lemma mime_header_read : forall E c f j, env_ok E -> f_mime E = true -> mime_header_of E c f -> ends is_wsp j -> exists f', any_field E (c ++ j) = Ok (j, f') /\ same_field f f'.
Proof.
  intros E c f j HE HM [H|([n v] & Hu & Hn & -> & ->)] Hj.
  - exact (any_field_forward E c f j (ok_hash E HE) H Hj).
  - exists (FUnknown n v). split; [|constructor]. apply unknown_mime_read; auto using ends_no_blank.
Qed.
Lemma mime_no_trace : forall E c l i, f_trace E = true -> many_of (mime_header_of E) c l -> bare i ->
  (exists e, trace_block E (c ++ i) = Err e) /\ (exists e, resent_field E (c ++ i) = Err e) /\ (exists e, received E (c ++ i) = Err e).
Proof.
  intros E c l i HT H Hi. assert (N : forall i, no_trace i -> (exists e, trace_block E i = Err e) /\ (exists e, resent_field E i = Err e) /\ (exists e, received E i = Err e)).
  { intros j Hj. split; [now apply block_none|]. split; [apply resent_none; intros name Hn; apply Hj; cbn; tauto|apply received_none; apply Hj; in_list]. }
  destruct H as [|c f cs l H Hl]; [cbn [app]; now apply N, bare_no_trace|]. rewrite <- app_assoc. destruct H as [H|([n v] & Hu & _ & -> & _)]; [eapply N, clear_field_no_trace; eauto|].
  apply unknown_line_trace; [exact (shown_value E _ Hu)|]. apply ends_no_blank. eapply headers_start; [|now apply bare_wsp|exact Hl]. intros. eapply mime_header_starts; eauto.
Qed.

(* ---- the email ---- *)
Definition mime_email_headers (E : env) (e : email) (r : raw_entity_t) : list field :=
  map trace_header (trace_of e) ++ (known_headers E e ++ mime_headers r) ++ map unknown_header (unknown_fields e).
Lemma only_of : forall A (sel : field -> option A) fs o, pick sel fs = opt_list o -> only sel fs = o.
Proof. intros A sel fs [a|] H; unfold only; now rewrite H. Qed.
Ltac picks_mime g := unfold mime_email_headers, mime_headers, known_headers; rewrite !pick_app; misses; rewrite (pick_hit _ _ _ _ g) by (let b := fresh in intros b; first [reflexivity|destruct b as [[? ?] ?]; reflexivity|destruct b; reflexivity]); rewrite ?map_id.
Lemma mime_headers_email : forall E e r, f_mime E = true -> mime_mail_value E e -> mime_entity e = Some r -> e_additional_headers r = [] -> email_of E (mime_email_headers E e r) (Some (e_value r)) e.
Proof.
  intros E e r HM H HR HA. constructor.
  - unfold mime_email_headers, mime_headers, known_headers. rewrite !pick_app. misses. rewrite <- !app_assoc.
    match goal with |- NoDup (?a ++ ?b ++ ?c ++ ?d ++ ?e ++ ?f ++ ?g ++ ?h ++ ?i ++ ?j ++ ?k ++ ?l ++ ?m ++ ?n ++ ?o) => rewrite <- (app_nil_r o); change (NoDup (concat [a; b; c; d; e; f; g; h; i; j; k; l; m; n; o])) end.
    eapply pieces_nodup with (names := ["Date"; "From"; "Sender"; "Reply-To"; "To"; "Cc"; "Bcc"; "Message-ID"; "In-Reply-To"; "References"; "Subject"; "Content-Type"; "Content-Description"; "Content-Id"; "Content-Disposition"]%string).
    + repeat (apply Forall2_cons; [first [apply constant_piece; reflexivity|destruct (f_from E); [right|left]; reflexivity|right; reflexivity]|]). apply Forall2_nil.
    + repeat (apply NoDup_cons; [cbn; intuition discriminate|]). apply NoDup_nil.
  - pose proof (mv_from E e H) as V. destruct (f_from E) eqn:F; [|exact V]. unfold only. picks_mime (fun x : list mailbox_t => x). rewrite F. reflexivity.
  - pose proof (mv_date E e H) as V. destruct (f_date E); [|exact V]. destruct V as (d & V & _). split; [|congruence]. apply only_of. picks_mime (fun x : date_time_t => x). reflexivity.
  - pose proof (mv_sender E e H) as V. destruct (f_sender E); [|exact V]. destruct V as (m & V & _). split; [|congruence]. replace (only is_sender (mime_email_headers E e r)) with (sender e); [rewrite V; reflexivity|].
    symmetry. apply only_of. picks_mime (fun x : mailbox_t => x). reflexivity.
  - symmetry. apply only_of. picks_mime (fun x : bytes => x). reflexivity.
  - symmetry. apply only_of. picks_mime (fun x : list address_t => x). reflexivity.
  - symmetry. apply only_of. picks_mime (fun x : list address_t => x). reflexivity.
  - symmetry. apply only_of. picks_mime (fun x : list address_t => x). reflexivity.
  - symmetry. apply only_of. picks_mime (fun x : bytes * bytes => x). reflexivity.
  - symmetry. apply only_of. picks_mime (fun x : list (bytes * bytes) => x). reflexivity.
  - symmetry. apply only_of. picks_mime (fun x : list (bytes * bytes) => x). reflexivity.
  - symmetry. apply only_of. picks_mime (fun x : list address_t => x). reflexivity.
  - picks_mime (fun x : bytes => x). reflexivity.
  - picks_mime (fun x : list (list bytes) => x). destruct (keywords e); [reflexivity|]. cbn [concat]. now rewrite app_nil_r.
  - picks_mime (fun x : block => x). reflexivity.
  - picks_mime (fun x : bytes * bytes => x). reflexivity.
  - rewrite HM. exact (mv_body E e H).
  - rewrite HM. exists (e_value r). assert (X1 : only is_cte (mime_email_headers E e r) = None) by (apply only_of; unfold mime_email_headers, mime_headers, known_headers; rewrite !pick_app; misses; reflexivity).
    assert (X2 : only is_content_type (mime_email_headers E e r) = Some (e_mime_type r, e_subtype r, e_parameters r)) by (apply only_of; picks_mime (fun x : content_type_t * bytes * list (bytes * bytes) => x); reflexivity).
    assert (X3 : only is_content_description (mime_email_headers E e r) = e_description r) by (apply only_of; picks_mime (fun x : bytes => x); reflexivity).
    assert (X4 : only is_content_id (mime_email_headers E e r) = e_id r) by (apply only_of; picks_mime (fun x : bytes * bytes => x); reflexivity).
    assert (X5 : only is_content_disposition (mime_email_headers E e r) = e_disposition r) by (apply only_of; picks_mime (fun x : disposition_t => x); reflexivity).
    rewrite X1, X2, X3, X4, X5. cbn [encoding_of type_of fst snd]. split; [constructor|]. rewrite HR. destruct r. cbn in HA |- *. now rewrite HA.
Qed.
(* emails made of the same headers *)
Lemma same_type : forall fs fs', Forall2 same_field fs fs' -> let a := type_of (only is_content_type fs) in let a' := type_of (only is_content_type fs') in fst a = fst a' /\ same_map (snd a) (snd a').
Proof.
  intros fs fs' F. cbn. assert (R : forall n, map_get (snd (type_of None)) n = map_get (snd (type_of None)) n) by reflexivity. unfold only, pick. induction F as [|f f' fs fs' Hf F IH]; [split; [reflexivity|intros n; reflexivity]|]. cbn [map concat].
  destruct Hf as [f|t s l l' Hl|k g c m r l l' Hl]; cbn [is_content_type opt_list app hd_error type_of].
  - destruct (is_content_type f) as [x|]; cbn [opt_list app hd_error type_of]; [split; [reflexivity|intros n; reflexivity]|exact IH].
  - cbn [fst snd]. split; [reflexivity|exact Hl].
  - exact IH.
Qed.
Lemma same_disp : forall fs fs', Forall2 same_field fs fs' -> same_option same_disposition_t (only is_content_disposition fs) (only is_content_disposition fs').
Proof.
  intros fs fs' F. unfold only, pick. assert (SR : forall d, same_disposition_t d d) by (intros [k g c m r l]; constructor; intros n; reflexivity). induction F as [|f f' fs fs' Hf F IH]; [constructor|]. cbn [map concat].
  destruct Hf as [f|t s l l' Hl|k g c m r l l' Hl]; cbn [is_content_disposition opt_list app hd_error].
  - destruct (is_content_disposition f) as [x|]; cbn [opt_list app hd_error]; [now constructor|exact IH].
  - exact IH.
  - constructor. constructor. exact Hl.
Qed.
Lemma email_same : forall E fs fs' b e e', Forall2 same_field fs fs' -> email_of E fs b e -> email_of E fs' b e' -> same_email e e'.
Proof.
  intros E fs fs' b e e' F [_ O2 O3 O4 O5 O6 O7 O8 O9 O10 O11 O12 O13 O14 O15 O16 O17 O18] [_ P2 P3 P4 P5 P6 P7 P8 P9 P10 P11 P12 P13 P14 P15 P16 P17 P18].
  assert (ON : forall A (sel : field -> option A), (forall f g, same_field f g -> sel f = sel g) -> only sel fs' = only sel fs) by (intros; symmetry; now apply same_only).
  assert (PN : forall A (sel : field -> option A), (forall f g, same_field f g -> sel f = sel g) -> pick sel fs' = pick sel fs) by (intros; symmetry; now apply same_pick).
  rewrite (ON _ is_from) in P2 by same_sel. rewrite (ON _ is_date) in P3 by same_sel. rewrite (ON _ is_sender) in P4 by same_sel. rewrite (ON _ is_subject) in P5 by same_sel. rewrite (ON _ is_to) in P6 by same_sel.
  rewrite (ON _ is_cc) in P7 by same_sel. rewrite (ON _ is_bcc) in P8 by same_sel. rewrite (ON _ is_message_id) in P9 by same_sel. rewrite (ON _ is_in_reply_to) in P10 by same_sel. rewrite (ON _ is_references) in P11 by same_sel.
  rewrite (ON _ is_reply_to) in P12 by same_sel. rewrite (PN _ is_comments) in P13 by same_sel. rewrite (PN _ is_keywords) in P14 by same_sel. rewrite (PN _ is_trace) in P15 by same_sel. rewrite (PN _ is_unknown) in P16 by same_sel.
  assert (M : same_option same_entity (mime_entity e) (mime_entity e')).
  { destruct (f_mime E); [|rewrite O18, P18; constructor]. destruct O18 as (v & Hv & ->), P18 as (v' & Hv' & ->). rewrite (ON _ is_cte) in Hv' by same_sel. rewrite (ON _ is_content_description), (ON _ is_content_id) by same_sel.
    assert (v' = v) by (destruct b as [b|]; [eapply transfer_fun; eauto|congruence]). subst v'. destruct (same_type fs fs' F) as [T1 T2]. constructor. rewrite <- T1. constructor; [exact T2|now apply same_disp]. }
  assert (FR : from e' = from e) by (destruct (f_from E); congruence). rewrite FR in P4.
  assert (DA : date_of e' = date_of e) by (destruct (f_date E); [destruct O3, P3|]; congruence). assert (SE : sender e' = sender e) by (destruct (f_sender E); [destruct O4, P4|]; congruence).
  clear O2 O3 O4 O18 P2 P3 P4 P18. rewrite <- O5 in P5. rewrite <- O6 in P6. rewrite <- O7 in P7. rewrite <- O8 in P8. rewrite <- O9 in P9. rewrite <- O10 in P10. rewrite <- O11 in P11. rewrite <- O12 in P12. rewrite <- O13 in P13. rewrite <- O14 in P14. rewrite <- O15 in P15. rewrite <- O16 in P16. rewrite <- O17 in P17.
  clear - M FR DA SE P5 P6 P7 P8 P9 P10 P11 P12 P13 P14 P15 P16 P17. destruct e, e'. cbn in *. subst. now constructor.
Qed.
Lemma lined_wf : forall c, lined c -> wf_bytes c.
Proof.
  intros c H. induction H as [|b c Hb Hc IH|w c Hw Hc IH].
  - constructor.
  - constructor; [|exact IH]. destruct Hb as [H|H]; unfold rfc_VCHAR, rfc_WSP in H; unfold wf_byte; lia.
  - unfold wf_bytes in *. repeat (apply Forall_app; split); repeat (constructor; [unfold wf_byte, rfc_WSP in *; lia|]); try constructor; auto.
Qed.
Lemma hlines_wf : forall c, hlines c -> wf_bytes c.
Proof.
  intros c H. induction H as [|c d [n t [_ Hn] Ht] Hd IH]; [constructor|]. apply Forall_app. split; [|exact IH]. apply Forall_app. split; [eapply Forall_impl; [|exact Hn]; unfold rfc_ftext, wf_byte; intros; lia|].
  apply Forall_app. split; [repeat constructor; unfold wf_byte; lia|]. apply Forall_app. split; [now apply lined_wf|repeat constructor; unfold wf_byte; lia].
Qed.
Lemma email_accepted : forall E fs b e, env_ok E -> f_mime E = true -> email_of E fs b e -> acceptable E fs b.
Proof.
  intros E fs b e HE HM H. pose proof (of_unique _ _ _ _ H) as HN. constructor; [exact HN|..].
  - intros F. pose proof (of_from _ _ _ _ H) as X. rewrite F in X. intros Y. unfold only in X. now rewrite Y in X.
  - intros F. pose proof (of_date _ _ _ _ H) as X. rewrite F in X. destruct X as [X X']. intros Y. unfold only in X. rewrite Y in X. cbn in X. congruence.
  - intros F. pose proof (ok_sender _ HE F) as F'. pose proof (of_sender _ _ _ _ H) as X. rewrite F in X. destruct X as [X X']. pose proof (of_from _ _ _ _ H) as Y. rewrite F' in Y.
    destruct (pick is_sender fs) eqn:P; [|left; discriminate]. right. unfold only at 1 in X. rewrite P in X. cbn in X. destruct (from e) as [|m [|m' l]] eqn:Q; try congruence. exists m.
    apply (LessFacts.pick_once _ is_from "From"%string fs [m]); auto. intros f x. destruct f; cbn; try discriminate. reflexivity.
  - intros M t ->. pose proof (of_mime _ _ _ _ H) as X. rewrite M in X. destruct X as (v & X & _). eauto.
  - congruence.
Qed.
Theorem mime_mail_written : forall E e, env_ok E -> f_mime E = true -> mime_mail_value E e -> Forall (unclaimed E) (unknown_fields e) -> exists data e', wf_bytes data /\ parse E data = Ok e' /\ same_email e e'.
Proof.
  intros E e HE HM H HU. destruct (mv_mime E e H) as (r & HR & HV). destruct (mv_trace E e H) as (T1 & T2 & T3). destruct (utf8_blocks_text E (trace_of e) HM T1 T2) as [c1 H1].
  assert (X2 : exists c, many_of (mime_header_of E) c ((known_headers E e ++ mime_headers r) ++ map unknown_header (unknown_fields e))).
  { apply (many_text _ _ (fun f => exists c, mime_header_of E c f)); [auto|]. apply Forall_app. split.
    - eapply Forall_impl; [|apply Forall_app; split; [exact (known_mime_text E e HM H)|exact (mime_headers_text E r HM HV)]]. intros f [c Hc]. exists c. now left.
    - apply Forall_map. apply Forall_forall. intros u Hu. exists (unknown_line (fst u, shown E (snd u))). right. exists u. pose proof (mv_unknown E e H) as V. rewrite Forall_forall in V, HU. auto. }
  destruct X2 as [c2 H2]. set (rest := CRLF ++ e_value r). assert (HB : bare rest) by (right; unfold rest; eauto).
  destruct (headers_steps _ _ (mime_header_of E) (any_field E) same_field rest) with (c := c2) (l := (known_headers E e ++ mime_headers r) ++ map unknown_header (unknown_fields e)) as (l' & S & R);
    [intros c0 a j Ha Hj; now apply mime_header_read|intros; eapply mime_header_starts; eauto|now apply bare_wsp|now apply any_field_bare|exact H2|].
  assert (W : ends is_wsp (c2 ++ rest)) by (eapply headers_start; [|now apply bare_wsp|exact H2]; intros; eapply mime_header_starts; eauto).
  assert (X : fields E (c1 ++ c2 ++ rest) = Ok (rest, map trace_header (trace_of e) ++ l')).
  { unfold fields. destruct (f_trace E) eqn:T.
    - destruct (mime_no_trace E c2 _ rest T H2 HB) as (N1 & N2 & N3). rewrite (many_steps _ _ _ _ _ (blocks_until E c1 _ H1 (c2 ++ rest) W N1 N2 N3)). cbn [bind]. rewrite (many_steps _ _ _ _ _ S). reflexivity.
    - rewrite (T3 eq_refl) in *. cbn [map] in H1. inversion H1; subst. cbn [app bind map]. rewrite (many_steps _ _ _ _ _ S). reflexivity. }
  assert (PM : parse_message E (c1 ++ c2 ++ rest) = Ok (map trace_header (trace_of e) ++ l', Some (e_value r))).
  { unfold parse_message. rewrite X. cbn [bind]. rewrite HM. unfold rest. change (mime_body (CRLF ++ e_value r)) with (let* (r, _) := tag CRLF "TAG ERROR: Headers must be followed by a CRLF sequence." (CRLF ++ e_value r) in Ok (Some r)). rewrite tag_app. reflexivity. }
  assert (SF : Forall2 same_field (mime_email_headers E e r) (map trace_header (trace_of e) ++ l')) by (apply Forall2_app; [apply same_field_list_refl|exact R]).
  pose proof (mime_headers_email E e r HM H HR (ent_headers _ _ HV)) as EO.
  destruct (acceptable_email E (c1 ++ c2 ++ rest) _ _ HE PM) as (e' & P & EO'); [apply (acceptable_same E _ _ _ SF); eapply email_accepted; eauto|].
  exists (c1 ++ c2 ++ rest), e'. split; [|split; [exact P|exact (email_same E _ _ _ e e' SF EO EO')]].
  pose proof (sound_message E (c1 ++ c2 ++ rest) HE) as SM. rewrite PM in SM. destruct SM as [SM _]. inversion SM as [c fs c' b M1 M2 Q1 Q2 Q3]. inversion M2 as [|b' B1 B2]; subst. try rewrite <- B1 in *.
  apply Forall_app. split; [apply hlines_wf; eapply hlines_many; [|exact M1]; intros; eapply field_hlines; eauto|]. apply Forall_app. split; [repeat constructor; unfold wf_byte; lia|exact (ent_value _ _ HV)].
Qed.
Lemma same_values : forall E e e', same_email e e' -> mime_mail_value E e' -> mime_mail_value E e.
Proof.
  intros E e e' S [V1 V2 V3 V4 V5 V6 V7 V8 V9 V10 V11 V12 V13 V14 V15 V16 V17]. destruct S as [b fr se su da t c bc mi ir re rt co ke tr me me' un M]. cbn in *. constructor; cbn; auto.
  destruct V17 as (r & -> & VR). inversion M as [|x y HS X1 X2]; subst. exists x. split; [reflexivity|]. destruct HS as [t0 s d i p p' x0 x' v a HP HX]. destruct VR as [R1 R2 R3 R4 R5 R6 R7 R8]. cbn in *. constructor; cbn; auto.
  - intros n w G. apply R5. now rewrite <- HP.
  - destruct HX as [|y y' HD]; [exact I|]. split; [reflexivity|]. destruct R6 as [_ R6]. destruct HD as [k f c0 m0 r0 l l' HL]. destruct R6 as [D1 D2 D3 D4 D5 D6]. cbn in *. constructor; cbn; auto. intros n w G. apply D6. now rewrite <- HL.
Qed.
Theorem mime_mail_values : forall E e, env_ok E -> f_mime E = true -> f_unrecognized_headers E = true ->
  (exists data e', wf_bytes data /\ parse E data = Ok e' /\ same_email e e') <-> mime_mail_value E e.
Proof.
  intros E e HE HM HU. split.
  - intros (data & e' & HW & HP & S). eapply same_values; [exact S|]. eapply mime_mail_range; eauto.
  - intros H. apply mime_mail_written; auto. apply Forall_forall. intros u _. now left.
Qed.

(* Proof of C36: written parameters are read back. *)
From Coq Require Import Lia ZifyBool ZifyNat ZifyN Permutation.
From Verif Require Import Base Utf8 Charset Time Address Percent MimeFields Fields Rfc5322 Post CodecSpec Rfc2047 RfcFields CodecArith PercentProofs SoundFields ParamProofs CompleteFields
  Complete Forward ForwardList ForwardMime ForwardParams ForwardParts ForwardMimeFields Writers WriteFacts WriteAddr ParamSpec Utf8Facts.
Local Open Scope N_scope.

(* ---- lookups ---- *)
Definition at_index (k : N) (x : N * (bool * bytes)) : option (bool * bytes) := if k =? fst x then Some (snd x) else None.
Lemma last_some_app : forall A B (f : A -> option B) a b, last_some f (a ++ b) = match last_some f b with Some x => Some x | None => last_some f a end.
Proof. intros A B f a b. induction a as [|x a IH]; cbn [app last_some]; [destruct (last_some f b); auto|]. rewrite IH. destruct (last_some f b); auto. Qed.
Lemma segment_lookup : forall raw n k, segment raw n k = last_some (at_index k) (segments_of raw n).
Proof.
  intros raw n k. unfold segment, segments_of. induction raw as [|[[[n' i] e] v] raw IH]; [reflexivity|]. cbn [last_some map concat]. rewrite last_some_app, <- IH.
  match goal with |- match ?x with _ => _ end = _ => destruct x; [reflexivity|] end. destruct i as [k'|]; [|destruct (bytes_eqb n n'); reflexivity].
  destruct (bytes_eqb n n'); [|reflexivity]. cbn. unfold at_index. cbn. destruct (k =? k'); reflexivity.
Qed.
Lemma plain_lookup : forall raw n, plain_value raw n = last_of (values_of raw n).
Proof.
  assert (L : forall (a b : list bytes), last_of (a ++ b) = match last_of b with Some x => Some x | None => last_of a end).
  { induction a as [|x a IH]; intros b; cbn [app last_of]; [destruct (last_of b); auto|]. rewrite IH. destruct (last_of b); auto. }
  intros raw n. unfold plain_value, values_of. induction raw as [|[[[n' i] e] v] raw IH]; [reflexivity|]. cbn [last_some map concat]. rewrite L, <- IH.
  match goal with |- match ?x with _ => _ end = _ => destruct x; [reflexivity|] end. destruct i as [k'|]; destruct (bytes_eqb n n'); reflexivity.
Qed.
Lemma at_index_perm : forall k l l', Permutation l l' -> NoDup (map fst l) -> last_some (at_index k) l = last_some (at_index k) l'.
Proof.
  intros k l l' H. induction H as [|x l l' H IH|x y l|l l' l'' H1 IH1 H2 IH2]; intros Hd; auto.
  - cbn. inversion Hd; subst. now rewrite IH.
  - cbn. destruct (last_some (at_index k) l); auto. unfold at_index. destruct (N.eqb_spec k (fst x)), (N.eqb_spec k (fst y)); auto. subst. inversion Hd as [|? ? K]; subst. exfalso. apply K. left. cbn. congruence.
  - rewrite IH1 by auto. apply IH2. eapply Permutation_NoDup; [|exact Hd]. now apply Permutation_map.
Qed.
Lemma numbered_keys : forall A (l : list A) j k, In k (map fst (numbered j l)) -> j <= k.
Proof. intros A l. induction l as [|x l IH]; intros j k H; [easy|]. destruct H as [<-|H]; [cbn; lia|]. apply IH in H. lia. Qed.
Lemma numbered_NoDup : forall A (l : list A) j, NoDup (map fst (numbered j l)).
Proof. intros A l. induction l as [|x l IH]; intros j; [constructor|]. cbn. constructor; auto. intros H. apply numbered_keys in H. lia. Qed.
Lemma numbered_lookup : forall l j k, last_some (at_index k) (numbered j l) = if k <? j then None else nth_error l (N.to_nat (k - j)).
Proof.
  intros l. induction l as [|x l IH]; intros j k; cbn [numbered last_some].
  - destruct (k <? j); auto. destruct (N.to_nat (k - j)); reflexivity.
  - rewrite IH. unfold at_index. cbn. destruct (N.ltb_spec k (j + 1)).
    + destruct (N.eqb_spec k j), (N.ltb_spec k j); try lia; auto. subst. replace (N.to_nat (j - j)) with O by lia. reflexivity.
    + destruct (N.ltb_spec k j); [lia|]. replace (N.to_nat (k - j)) with (S (N.to_nat (k - (j + 1)))) by lia. cbn. destruct (nth_error l _); auto. destruct (N.eqb_spec k j); [lia|auto].
Qed.
Lemma cut_lookup : forall raw n l, Permutation (segments_of raw n) (numbered 0 l) -> forall k, segment raw n k = nth_error l (N.to_nat k).
Proof.
  intros raw n l H k. rewrite segment_lookup. rewrite (at_index_perm k _ _ H).
  - rewrite numbered_lookup. destruct (N.ltb_spec k 0); [lia|]. f_equal. lia.
  - eapply Permutation_NoDup; [apply Permutation_map, Permutation_sym, H|apply numbered_NoDup].
Qed.

(* ---- values ---- *)
Lemma ext_utf8 : forall E u t, ascii t -> percent_encodes u t -> utf8_valid u = true -> ext_text (textcode E) (bs "utf-8") t u.
Proof.
  intros E u t Ha H Hv. apply ext_known. rewrite (rtl_encodes u t H). apply (charset_value_ok E (bs "utf-8") Utf8OrAscii u u eq_refl). cbn. unfold str_checked. now rewrite Hv.
Qed.
Definition cs_of (c : bool) : option bytes := if c then Some (bs "utf-8") else None.
Lemma cut_rest_tail : forall E c l v, cut_rest c l v -> Forall (fun s => ascii (snd s)) l -> forall seg k, (forall j, k <= j -> seg j = nth_error l (N.to_nat (j - k))) ->
  tail_value (textcode E) seg (cs_of c) k v.
Proof.
  intros E c l v H. induction H as [|t l v H IH|t u l v Hc He Hu H IH]; intros Ha seg k Hs.
  - apply tail_end. rewrite Hs by lia. destruct (N.to_nat (k - k)); reflexivity.
  - inversion Ha; subst. eapply tail_more with (s := (false, t)); [rewrite Hs by lia; replace (N.to_nat (k - k)) with O by lia; reflexivity|constructor|].
    apply IH; auto. intros j Hj. rewrite Hs by lia. replace (N.to_nat (j - k)) with (S (N.to_nat (j - (k + 1)))) by lia. reflexivity.
  - inversion Ha; subst. eapply tail_more with (s := (true, t)); [rewrite Hs by lia; replace (N.to_nat (k - k)) with O by lia; reflexivity|apply (next_ext _ _ (bs "utf-8")); [reflexivity|now apply ext_utf8]|].
    apply IH; auto. intros j Hj. rewrite Hs by lia. replace (N.to_nat (j - k)) with (S (N.to_nat (j - (k + 1)))) by lia. reflexivity.
Qed.
Lemma stands_value : forall E limit raw n o, Forall param_ok raw -> stands_for limit raw n o -> param_value (textcode E) raw n o.
Proof.
  intros E limit raw n o Hr H. destruct H as [H|l v Hp Hc Hl].
  - rewrite <- plain_lookup. apply value_plain. rewrite segment_lookup, H. reflexivity.
  - pose proof (cut_lookup raw n l Hp) as K.
    assert (Ha : Forall (fun s => ascii (snd s)) l).
    { apply Forall_forall. intros s Hs. apply In_nth_error in Hs as [j Hj]. apply (segment_ascii raw n (N.of_nat j)); auto. rewrite K. rewrite Nnat.Nat2N.id. exact Hj. }
    inversion Hc as [t l' v' H1|charset lang t u l' v' H1 H2 H3 H4 H5]; subst; clear Hc; inversion Ha as [|? ? A1 A2]; subst.
    + apply value_segments with (s := (false, t)) (cs := None); [now rewrite K|constructor|]. apply (cut_rest_tail E false l'); auto.
      intros j Hj. rewrite K. replace (N.to_nat j) with (S (N.to_nat (j - 1))) by lia. reflexivity.
    + cbn in A1. unfold same_nocase in H1. apply value_segments with (s := (true, charset ++ bs "'" ++ lang ++ bs "'" ++ t)) (cs := Some (bs "utf-8")); [now rewrite K| |].
      * change (Some (bs "utf-8")) with (Some (map fold_case (bs "utf-8"))). rewrite <- H1. apply first_ext; auto.
        -- intros X. apply (in_map fold_case) in X. rewrite H1 in X. vm_compute in X. lia.
        -- rewrite H1. apply ext_utf8; auto. unfold ascii in *. rewrite Forall_forall in *. intros x Hx. apply A1. apply in_or_app. right. right. apply in_or_app. right. now right.
      * apply (cut_rest_tail E true l'); auto. intros j Hj. rewrite K. replace (N.to_nat j) with (S (N.to_nat (j - 1))) by lia. reflexivity.
Qed.
Lemma stands_limit : forall E raw m, (forall n, stands_for (most_segments E) raw n (m n)) -> segments_ok E raw.
Proof.
  intros E raw m H Hd n. specialize (H n). unfold most_segments in H. rewrite Hd in H. destruct H as [H|l v Hp _ Hl]; [rewrite segment_lookup, H; reflexivity|].
  rewrite (cut_lookup raw n l Hp). apply nth_error_None. lia.
Qed.

(* ---- headers ---- *)
Lemma written_name_clear : forall a i e n, chars1 (fun x => mime_token_char x /\ x <> 42) a -> written_param_name a i e n -> (forall k, i = Some k -> k < 256) ->
  clear_param_name n (map fold_case a, i, e).
Proof.
  intros a i e n Ha Hn Hi. apply clear_indexed. destruct i as [k|]; cbv beta iota delta [written_param_name] in Hn.
  - destruct Hn as (d & Hd & Hk & ->). rewrite (app_assoc (bs "*")). constructor; auto. subst k. constructor; auto.
  - destruct Hn as [-> ->]. rewrite <- (app_nil_r a) at 1. apply (indexed_intro a [] None false); auto. constructor.
Qed.
Lemma written_value_clear : forall c v, written_param_value c v -> clear_param_value c v.
Proof. intros c v [v' Hv|q v' Hq]; constructor; auto. now apply quoting_qbody. Qed.
Lemma written_param_clear : forall c p, written_param c p -> clear_param c p.
Proof.
  intros c p [a i e n c' v Ha Hn Hi Hv]. apply (clear_param_intro [] (bs " ") n (map fold_case a) i e c' v); auto using written_name_clear, written_value_clear.
Qed.
Lemma written_params_ok : forall ps raw, many_of written_param ps raw -> many_of clear_param ps raw /\ Forall param_ok raw.
Proof.
  intros ps raw H. assert (C : many_of clear_param ps raw) by (eapply many_of_impl; [exact H|]; intros; now apply written_param_clear).
  split; auto. eapply many_param_ok, many_of_impl; [exact C|]. intros. now apply clear_param_rfc.
Qed.
Lemma stands_params : forall E raw m, an_order (hash_order E) -> Forall param_ok raw -> (forall n, stands_for (most_segments E) raw n (m n)) ->
  exists l, params_value (textcode E) raw l /\ forall n, map_get l n = m n.
Proof.
  intros E raw m Hh Hr Hm. destruct (collect_parameters_forward E raw Hh Hr) as (l & _ & Hl).
  - apply segments_no_overflow. now apply (stands_limit E raw m).
  - intros n. exists (m n). eapply stands_value; eauto.
  - exists l. split; auto. intros n. apply (param_value_fun E raw n); auto. eapply stands_value; eauto.
Qed.
Lemma no_inline : inline_cfws [].
Proof. apply (inline_blank [] []); constructor. Qed.
Theorem params_read : forall E hn c t s ps raw m i, an_order (hash_order E) -> same_nocase hn (bs "Content-Type") -> clear_keyword mime_types CUnknown c t ->
  mime_token s -> many_of written_param ps raw -> (forall n, stands_for (most_segments E) raw n (m n)) -> no_blank i ->
  exists l, content_type E (hn ++ bs ": " ++ c ++ bs "/" ++ s ++ ps ++ CRLF ++ i) = Ok (i, (t, map fold_case s, l)) /\ forall n, map_get l n = m n.
Proof.
  intros E hn c t s ps raw m i Hh Hn Hk Hs Hps Hm Hi. destruct (written_params_ok ps raw Hps) as [Hc Hr]. destruct (stands_params E raw m Hh Hr Hm) as (l & Hl & Hg).
  destruct (content_type_forward E (hn ++ [58] ++ (bs " " ++ c ++ bs "/" ++ s ++ ps ++ []) ++ CRLF) t (map fold_case s) l i Hh (no_blank_ends i Hi)) as (l' & Hl' & Hg').
  - constructor; auto. econstructor; eauto; [now apply (stands_limit E raw m)|apply no_inline].
  - exists l'. split; [|intros n; rewrite <- Hg'; auto]. refine (eq_trans _ Hl'). f_equal. rewrite app_nil_r, <- !app_assoc. reflexivity.
Qed.
Lemma params_of_DParam : forall raw, params_of (map DParam raw) = raw.
Proof. intros raw. unfold params_of. induction raw as [|p raw IH]; [reflexivity|]. cbn. now rewrite IH. Qed.
Lemma written_param_item : forall c p, written_param c p -> ordinary_params [p] -> clear_disposition_item c (DParam p).
Proof.
  intros c p [a i e n c' v Ha Hn Hi Hv] Ho. inversion Ho as [|? ? Ho' _]; subst.
  apply (clear_item_param [] (bs " ") n (map fold_case a) i e c' v); auto using written_name_clear, written_value_clear.
  intros name Hname X. unfold same_nocase in X. destruct i as [k|]; cbv beta iota delta [written_param_name] in Hn.
  - destruct Hn as (d & _ & _ & ->). assert (Y : In 42 (map fold_case (bs name))). { rewrite <- X. apply (in_map fold_case _ 42). apply in_or_app. right. now left. }
    cbn [disposition_names In] in Hname. repeat destruct Hname as [<-|Hname]; try easy; vm_compute in Y; lia.
  - destruct Hn as [-> ->]. apply (Ho' eq_refl). rewrite X. cbn [disposition_names In] in Hname. repeat destruct Hname as [<-|Hname]; try easy; vm_compute; tauto.
Qed.
Lemma written_items : forall ps raw, many_of written_param ps raw -> ordinary_params raw -> many_of clear_disposition_item ps (map DParam raw).
Proof.
  intros ps raw H. induction H as [|c p cs l Hp H IH]; intros Ho; [constructor|]. inversion Ho; subst. cbn [map]. constructor; [|now apply IH]. apply written_param_item; auto. now constructor.
Qed.
Theorem disposition_read : forall E hn c k ps raw m i, an_order (hash_order E) -> same_nocase hn (bs "Content-Disposition") -> clear_keyword mime_dispositions DUnknown c k ->
  many_of written_param ps raw -> ordinary_params raw -> (forall n, stands_for (most_segments E) raw n (m n)) -> no_blank i ->
  exists d, content_disposition E (hn ++ bs ": " ++ c ++ ps ++ CRLF ++ i) = Ok (i, d) /\ disposition_type d = k /\ disp_filename d = None /\
    forall n, map_get (disp_unstructured d) n = m n.
Proof.
  intros E hn c k ps raw m i Hh Hn Hk Hps Ho Hm Hi. destruct (written_params_ok ps raw Hps) as [Hc Hr]. destruct (stands_params E raw m Hh Hr Hm) as (l & Hl & Hg).
  pose proof (written_items ps raw Hps Ho) as His.
  assert (V : params_value (textcode E) (params_of (map DParam raw)) l) by now rewrite params_of_DParam.
  assert (S : segments_ok E (params_of (map DParam raw))) by (rewrite params_of_DParam; now apply (stands_limit E raw m)).
  pose proof (clear_disposition_intro E (bs " ") c k ps (map DParam raw) l [] (blanks_oCFWS _ blank1) Hk His S V no_inline) as D.
  destruct (content_disposition_forward E (hn ++ [58] ++ (bs " " ++ c ++ ps ++ []) ++ CRLF) _ i Hh (no_blank_ends i Hi) (header_intro _ _ _ _ _ Hn D)) as (d' & Hd & Hs).
  exists d'. split; [refine (eq_trans _ Hd); f_equal; rewrite app_nil_r, <- !app_assoc; reflexivity|].
  assert (F : forall T (f : disposition_item -> option T), (forall p, f (DParam p) = None) -> last_some f (map DParam raw) = None).
  { intros T f Hf. clear - Hf. induction raw as [|p raw IH]; [reflexivity|]. cbn. now rewrite IH. }
  inversion Hs as [f|t s l0 l1 Hl0|k0 f0 c0 m0 r0 l0 l1 Hl0]; subst; cbn [disposition_type disp_filename disp_unstructured].
  - split; [reflexivity|]. split; [now apply F|exact Hg].
  - split; [reflexivity|]. split; [now apply F|]. intros n. rewrite <- Hl0. apply Hg.
Qed.

(* ---- every map of names to texts can be written ---- *)
Definition hex (x : N) : byte := nth (N.to_nat x) (bs "0123456789ABCDEF") 0.
Definition percent_text (v : bytes) : bytes := concat (map (fun c => [37; hex (c / 16); hex (c mod 16)]) v).
Lemma hex_back : forall x, x < 16 -> hex_value (hex x) = Some x /\ mime_token_char (hex x).
Proof.
  intros x H. assert (K : In x [0;1;2;3;4;5;6;7;8;9;10;11;12;13;14;15]) by (cbn; lia). cbn in K.
  repeat destruct K as [<-|K]; try easy; (split; [reflexivity|]; split; [vm_compute; split; discriminate|]; intros Y; vm_compute in Y; lia).
Qed.
Lemma percent_text_encodes : forall v, wf_bytes v -> percent_encodes v (percent_text v) /\ Forall mime_token_char (percent_text v).
Proof.
  intros v H. induction H as [|c v Hc H [IH1 IH2]]; [split; constructor|]. unfold wf_byte in Hc. cbn [percent_text map concat app].
  destruct (hex_back (c / 16)) as [A1 A2]; [apply N.div_lt_upper_bound; lia|]. destruct (hex_back (c mod 16)) as [B1 B2]; [apply N.mod_lt; lia|]. split.
  - eapply pe_escape; [exact A1|exact B1| |exact IH1]. apply N.div_mod. lia.
  - constructor; [split; [lia|]; intros Y; vm_compute in Y; lia|]. constructor; auto.
Qed.
Definition as_param (x : bytes * bytes) : param := let '(n, v) := x in (n, Some 0, true, bs "utf-8''" ++ percent_text v).
Definition as_text (x : bytes * bytes) : bytes := let '(n, v) := x in bs "; " ++ (n ++ bs "*" ++ bs "0" ++ bs "*") ++ bs "=" ++ bs "utf-8''" ++ percent_text v.
Lemma as_segments : forall l n, NoDup (map fst l) -> segments_of (map as_param l) n = match map_get l n with Some v => [(0, (true, bs "utf-8''" ++ percent_text v))] | None => [] end.
Proof.
  intros l n H. induction l as [|[n' v] l IH]; [reflexivity|]. inversion H; subst. unfold segments_of in *. cbn [map concat as_param]. rewrite IH by auto. cbn [map_get].
  destruct (bytes_eqb n n') eqn:Q; [|reflexivity]. apply bytes_eqb_eq in Q. subst n'. destruct (map_get l n) as [v'|] eqn:G; [|reflexivity].
  exfalso. cbn in *. apply H2. clear - G. induction l as [|[a b] l IH]; [discriminate|]. cbn in *. destruct (bytes_eqb n a) eqn:Q; [apply bytes_eqb_eq in Q; auto|auto].
Qed.
Lemma as_values : forall l n, values_of (map as_param l) n = [].
Proof. intros l n. unfold values_of. induction l as [|[n' v] l IH]; [reflexivity|]. exact IH. Qed.
Theorem some_params : forall l, writable_params l -> exists ps raw, many_of written_param ps raw /\ ordinary_params raw /\ forall n, stands_for 255 raw n (map_get l n).
Proof.
  intros l [Hd Hl]. exists (concat (map as_text l)), (map as_param l). split; [|split].
  - clear Hd. induction Hl as [|[n v] l (H1 & H2 & H3) Hl IH]; [constructor|]. cbn [map concat]. constructor; auto. cbn [as_text as_param]. rewrite <- H2 at 2.
    constructor; auto.
    + cbn. exists (bs "0"). split; [split; [discriminate|]; repeat constructor; vm_compute; discriminate|]. split; reflexivity.
    + intros k Hk. injection Hk as <-. lia.
    + constructor. split; [discriminate|]. apply Forall_app. split; [|now apply percent_text_encodes, utf8_wf].
      apply Forall_forall. intros x Hx. vm_compute in Hx. split; [lia|]. intros Y. vm_compute in Y. lia.
  - unfold ordinary_params. apply Forall_forall. intros p Hp. apply in_map_iff in Hp as ([n v] & <- & _). cbn. intros X. discriminate.
  - intros n. pose proof (as_segments l n Hd) as S. destruct (map_get l n) as [v|] eqn:G.
    + assert (V : utf8_valid v = true). { clear - G Hl. induction Hl as [|[a b] l (_ & _ & H) Hl IH]; [discriminate|]. cbn in G. destruct (bytes_eqb n a); [now inversion G; subst|auto]. }
      apply (stands_cut 255 _ n [(true, bs "utf-8''" ++ percent_text v)] v); [rewrite S; reflexivity| |cbn; lia].
      rewrite <- (app_nil_r v) at 2. change (bs "utf-8''" ++ percent_text v) with (bs "utf-8" ++ bs "'" ++ [] ++ bs "'" ++ percent_text v).
      apply cut_encoded; auto; [reflexivity|now apply percent_text_encodes, utf8_wf|constructor].
    + replace (@None bytes) with (last_of (values_of (map as_param l) n)); [now apply stands_plain|]. now rewrite as_values.
Qed.

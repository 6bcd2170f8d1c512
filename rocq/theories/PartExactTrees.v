(* C56: the trees of parts, and whole mails. *)
From Coq Require Import Lia ZifyBool ZifyNat ZifyN Permutation.
From Verif Require Import Base Utf8 Combinators Time Address Percent Charset MimeFields Fields Message Entity Email Envs
  Rfc5322 Rfc2047 CodecSpec RfcFields PercentProofs EmailSpec SoundMessage EmailProofs MessageFacts Complete CompleteFields ForwardFields ForwardMessage HeaderFacts MimeExactSpec MimeExactFacts
  MultipartSpec EntitySpec EntityProofs MultipartRound ParamProofs Post ParamSpec OrderFacts CutSpec CutFacts TreeSpec TreeFacts PartExactSpec PartExactFacts.
Local Open Scope N_scope.

Scheme shape_ind' := Minimality for shape Sort Prop with shapes_ind' := Minimality for shapes Sort Prop.
Combined Scheme shape_both_ind from shape_ind', shapes_ind'.
Definition type_parts (r : raw_entity_t) : content_type_t * bytes * list (bytes * bytes) := (e_mime_type r, e_subtype r, e_parameters r).
Section Trees.
Variable E : env.
Hypothesis HE : env_ok E.
Hypothesis HM : f_mime E = true.
Hypothesis HD : debug E = false.
Theorem shapes_shown :
  (forall ty v t, shape E ty v t -> forall r, (e_mime_type r, e_subtype r) = fst ty -> same_map (snd ty) (e_parameters r) -> e_value r = v -> shows E r t) /\
  (forall is ts, shapes E is ts -> exists rs, Forall2 (fun i r => raw_entity E i = Ok r) is rs /\ shows_all E rs ts).
Proof.
  apply shape_both_ind.
  - intros s ps v cs x Hc Hx r Hm Hp Hv. cbn in Hm, Hp. injection Hm as Hm Hs. subst s. apply shows_text. unfold entity. rewrite Hm. pose proof (Hp (bs "charset")) as Hq. unfold bytes, byte in *. rewrite Hc in Hq. rewrite <- Hq.
    destruct (text_shown E cs v x Hx) as (k & -> & Hk). rewrite Hv, Hk. reflexivity.
  - intros t s ps v H1 H2 r Hm Hp Hv. cbn in Hm, Hp. injection Hm as Hm Hs. subst. apply shows_data; [|exact H1]. unfold entity. destruct (e_mime_type r); congruence.
  - intros s ps v b parts ts Hb Hc _ (rs & Hrs & Hsh) r Hm Hp Hv. cbn in Hm, Hp. injection Hm as Hm Hs. subst s. apply shows_parts with (rs := rs); [|exact Hsh].
    apply (entity_multipart_exact E r _ Hm). exists b, parts, rs. pose proof (Hp (bs "boundary")) as Hq. unfold bytes, byte in *. rewrite Hb in Hq. split; [now symmetry|]. rewrite Hv. auto.
  - exists []. split; constructor.
  - intros i hs b v t is ts Hp Hv _ IH _ (rs & Hrs & Hsh). destruct (part_there E HE HM HD i hs b v Hp Hv) as (hs' & r & r' & X & _ & P & _ & S & V). exists (r' :: rs). split; constructor; auto.
    destruct P as [P1 _ _ _ _ _]. apply IH; [|rewrite <- P1; destruct S; cbn; assumption|exact V]. rewrite <- P1. destruct S. reflexivity.
Qed.
Theorem shown_shapes :
  (forall r t, shows E r t -> shape E (type_parts r) (e_value r) t) /\
  (forall rs ts, shows_all E rs ts -> forall is, Forall2 (fun i r => raw_entity E i = Ok r) is rs -> shapes E is ts).
Proof.
  apply shows_both_ind.
  - intros r s v H. pose proof (sound_entity E r (ok_hash E HE)) as S. rewrite H in S. cbn in S. inversion S as [|cs v' T C D| |]; subst. unfold type_parts. rewrite T. eapply shape_text; eauto.
  - intros r H N. unfold type_parts. apply shape_data; [exact N|]. intros X. apply (entity_multipart_exact E r _ X) in H as (b & parts & es & _ & _ & _ & Y). discriminate.
  - intros r s rs ts H _ IH. assert (X : e_mime_type r = CMultipart).
    { unfold entity in H. destruct (e_mime_type r); try discriminate H; [|reflexivity]. destruct (map_get _ _); [|discriminate]. destruct (find_charset _); [|discriminate]. destruct (decode_charset _ _ _); discriminate. }
    apply (entity_multipart_exact E r _ X) in H as (b & parts & es & H1 & H2 & H3 & Y). injection Y as -> ->. unfold type_parts. rewrite X. eapply shape_parts; eauto.
  - intros is H. inversion H. constructor.
  - intros r t rs ts _ IH _ IHs is H. inversion H as [|i r0 is' rs' Hi His]; subst. destruct (part_back E HE HM HD i r Hi) as (hs & b & H1 & H2).
    apply (shapes_cons E i hs b (e_value r)); [exact H1|apply H2| |now apply IHs]. destruct H2 as [P1 _ _ _ _ _]. rewrite <- P1. exact IH.
Qed.
Theorem shows_iff : forall r t, shows E r t <-> shape E (type_parts r) (e_value r) t.
Proof. intros r t. split; [apply shown_shapes|]. intros H. apply (proj1 shapes_shown _ _ _ H); [reflexivity|apply same_map_refl|reflexivity]. Qed.
Theorem part_tree_iff : forall i t, (exists r, raw_entity E i = Ok r /\ shows E r t) <->
  exists hs b v, part_text_read E i hs b /\ transfer_decoded (encoding_of (last_some of_encoding hs)) b v /\ shape E (type_of (last_some of_type hs)) v t.
Proof.
  intros i t. assert (X : (exists r, raw_entity E i = Ok r /\ shows E r t) <-> shapes E [i] [t]).
  2:{ rewrite X. split; [intros H; inversion H; subst; eauto 7|]. intros (hs & b & v & H1 & H2 & H3). econstructor; eauto. constructor. }
  split.
  - intros (r & H & S). apply (proj2 shown_shapes [r] [t]); [constructor; [exact S|constructor]|]. constructor; [exact H|constructor].
  - intros H. apply (proj2 shapes_shown) in H as (rs & H & S). inversion H as [|? r ? rs' H1 H2]; subst. inversion H2; subst. inversion S; subst. eauto.
Qed.
Theorem multipart_iff : forall r, e_mime_type r = CMultipart -> (exists x, entity E r = Ok x) <->
  exists b parts, map_get (e_parameters r) (bs "boundary") = Some b /\ cut_parts b (e_value r) parts /\
    Forall (fun i => exists hs t v, part_text_read E i hs t /\ transfer_decoded (encoding_of (last_some of_encoding hs)) t v) parts.
Proof.
  intros r HT. split.
  - intros [x H]. apply (entity_multipart_exact E r x HT) in H as (b & parts & es & H1 & H2 & H3 & _). exists b, parts. split; [exact H1|]. split; [exact H2|].
    clear H2. induction H3 as [|i e parts es Hi _ IH]; constructor; [|exact IH]. apply (part_iff E HE HM HD). eauto.
  - intros (b & parts & H1 & H2 & H3). assert (X : exists es, Forall2 (fun p e => raw_entity E p = Ok e) parts es).
    { clear H2. induction H3 as [|i parts Hi _ [es IH]]; [exists []; constructor|]. apply (part_iff E HE HM HD) in Hi as [e Hi]. exists (e :: es). now constructor. }
    destruct X as [es X]. exists (EMultipart (e_subtype r) es). apply (entity_multipart_exact E r _ HT). eauto 7.
Qed.
Theorem mail_tree_iff : forall d t, (exists e r, parse E d = Ok e /\ mime_entity e = Some r /\ shows E r t) <->
  exists fs b e r, mime_message_read E d fs b /\ email_of E fs b e /\ mime_entity e = Some r /\ shape E (type_of (only is_content_type fs)) (e_value r) t.
Proof.
  assert (TP : forall fs b e r, email_of E fs b e -> mime_entity e = Some r -> type_parts r = type_of (only is_content_type fs)).
  { intros fs b e r H Y. pose proof (of_mime _ _ _ _ H) as X. rewrite HM in X. destruct X as (v & _ & X). rewrite X in Y. injection Y as <-. unfold type_parts. cbn. now destruct (type_of (only is_content_type fs)) as [[? ?] ?]. }
  intros d t. split.
  - intros (e & r & P & Y & S). destruct (mime_parse_back E HE HM HD d e P) as (fs & b & H1 & H2). exists fs, b, e, r. split; [exact H1|]. split; [exact H2|]. split; [exact Y|].
    rewrite <- (TP fs b e r H2 Y). now apply shown_shapes.
  - intros (fs & b & e & r & H1 & H2 & Y & S). destruct (mime_parse_forward E HE HM HD d fs b e H1 H2) as (fs' & e' & P & F & H2'). pose proof (of_mime _ _ _ _ H2) as X. pose proof (of_mime _ _ _ _ H2') as X'.
    rewrite HM in X, X'. destruct X as (v & Hv & X). destruct X' as (v' & Hv' & X'). rewrite X in Y. injection Y as <-. cbn [e_value] in S.
    assert (Hc : only is_cte fs = only is_cte fs') by (apply same_only; [same_sel|exact F]). assert (V : v = v') by (destruct b as [b|]; [rewrite <- Hc in Hv'; eapply transfer_fun; eauto|congruence]). subst v'.
    eexists e', _. split; [exact P|]. split; [exact X'|]. apply (proj1 shapes_shown _ _ _ S); cbn [e_mime_type e_subtype e_parameters e_value]; [|apply (same_type_only fs fs' F)|reflexivity].
    pose proof (same_type_only fs fs' F) as [Q _]. rewrite Q. now destruct (fst (type_of (only is_content_type fs'))).
Qed.
End Trees.

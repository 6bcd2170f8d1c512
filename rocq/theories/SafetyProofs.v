(* Totality: corollaries of sound_parse and sound_entity. *)
From Coq Require Import Permutation.
From Verif Require Import Base Utf8 Combinators MimeFields Fields Message Entity Email Envs EmailSpec EntitySpec Post ParamProofs SoundFields
  SoundMessage EntityProofs.

Lemma parse_crash : forall E data c, env_ok E -> parse E data = Crash c ->
  debug E = true /\ f_mime E = true /\ c = Panic "attempt to add with overflow".
Proof. intros E data c HE H. pose proof (sound_parse E data HE) as S. rewrite H in S. destruct S as (Hm & Hd & ->). auto. Qed.
Lemma parse_total : forall E data, env_ok E -> debug E = false \/ f_mime E = false ->
  (exists e, parse E data = Ok e) \/ (exists err, parse E data = Err err).
Proof.
  intros E data HE H. destruct (parse E data) as [e|err|c] eqn:P; eauto.
  destruct (parse_crash E data c HE P) as (Hd & Hm & _). destruct H; congruence.
Qed.
Lemma parse_message_total : forall E data, env_ok E -> debug E = false \/ f_mime E = false ->
  (exists r, parse_message E data = Ok r) \/ (exists err, parse_message E data = Err err).
Proof.
  intros E data HE H. pose proof (sound_message E data HE) as S. destruct (parse_message E data) as [r|err|c]; eauto.
  destruct S as (Hm & Hd & _). destruct H; congruence.
Qed.
Lemma raw_entity_total : forall E i, env_ok E -> debug E = false ->
  (exists e, raw_entity E i = Ok e) \/ (exists err, raw_entity E i = Err err).
Proof.
  intros E i HE H. pose proof (sound_raw_entity E i (ok_hash E HE)) as S. destruct (raw_entity E i) as [r|err|c]; eauto.
  destruct S as (Hd & _). congruence.
Qed.
Lemma entity_crash : forall E r c, env_ok E -> entity E r = Crash c -> debug E = true /\ c = Panic "attempt to add with overflow".
Proof. intros E r c HE H. pose proof (sound_entity E r (ok_hash E HE)) as S. rewrite H in S. exact S. Qed.
Lemma entity_total : forall E r, env_ok E -> debug E = false ->
  (exists e, entity E r = Ok e) \/ (exists err, entity E r = Err err).
Proof.
  intros E r HE H. destruct (entity E r) as [e|err|c] eqn:P; eauto. destruct (entity_crash E r c HE P). congruence.
Qed.

(* The soundness of entity parsing in the form used by the properties. *)
From Coq Require Import Permutation.
From Verif Require Import Base Utf8 MimeFields Entity Envs Rfc5322 MultipartSpec EntitySpec Post ParamProofs EntityProofs.

Lemma entity_sound : forall E r e, env_ok E -> entity E r = Ok e -> entity_meaning E r e.
Proof. intros E r e HE H. pose proof (sound_entity E r (ok_hash E HE)) as S. rewrite H in S. exact S. Qed.
Lemma raw_entity_sound : forall E i r, env_ok E -> raw_entity E i = Ok r -> exists hs b, part_text E i hs b /\ part_of hs b r.
Proof. intros E i r HE H. pose proof (sound_raw_entity E i (ok_hash E HE)) as S. rewrite H in S. exact S. Qed.

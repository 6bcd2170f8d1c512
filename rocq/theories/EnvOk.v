(* The concrete build configurations of Envs.v are well formed. *)
From Coq Require Import Lia ZifyBool ZifyNat ZifyN Permutation ZArith.
From Verif Require Import Base Utf8 Envs.
Ltac Zify.zify_post_hook ::= Z.to_euclidean_division_equations.
Local Open Scope N_scope.

Lemma latin1_utf8 : forall l, wf_bytes l -> utf8_valid (latin1 l) = true.
Proof.
  intros l H. induction H as [|b l Hb Hl IH]; [reflexivity|]. cbn [latin1]. unfold wf_byte in Hb.
  destruct (N.ltb_spec b 128) as [Hlt|Hge].
  - cbn [app utf8_valid]. destruct (N.ltb_spec b 128); [exact IH|lia].
  - cbn [app utf8_valid]. replace (192 + b / 64 <? 128) with false by lia.
    unfold in_range, cont, in_range. replace ((194 <=? 192 + b / 64) && (192 + b / 64 <=? 223)) with true by lia.
    replace ((128 <=? 128 + b mod 64) && (128 + b mod 64 <=? 191)) with true by lia. exact IH.
Qed.
Lemma latin1_wf : forall l, wf_bytes l -> wf_bytes (latin1 l).
Proof.
  intros l H. induction H as [|b l Hb Hl IH]; [constructor|]. cbn [latin1]. unfold wf_byte in Hb.
  destruct (N.ltb_spec b 128); cbn [app]; repeat (apply Forall_cons; [unfold wf_byte; lia|]); exact IH.
Qed.
Lemma mod_wf : forall l, wf_bytes (map (fun b => b mod 256) l).
Proof. induction l; cbn; constructor; auto. unfold wf_byte. lia. Qed.
Lemma mk_env_ok : forall mime unrec compat dbg, (unrec = true -> mime = true) -> env_ok (mk_env mime unrec compat dbg).
Proof.
  intros. constructor; cbn; auto.
  - intros. apply latin1_utf8, mod_wf.
  - intros. apply latin1_wf, mod_wf.
Qed.
Lemma env_default_ok : env_ok env_default. Proof. now apply mk_env_ok. Qed.
Lemma env_mime_ok : env_ok env_mime. Proof. now apply mk_env_ok. Qed.
Lemma env_all_debug_ok : env_ok env_all_debug. Proof. now apply mk_env_ok. Qed.
Lemma env_none_ok : env_ok env_none.
Proof.
  constructor; cbn; auto; try discriminate.
  - intros. apply latin1_utf8, mod_wf.
  - intros. apply latin1_wf, mod_wf.
Qed.

(* C35, one header; the witnesses of C37. *)
From Coq Require Import Permutation.
From Verif Require Import Base Utf8 Combinators Percent MimeFields CodecSpec ParamSpec OrderFacts.

Lemma content_type_any_order : forall E h h' i r t s l, an_order h -> an_order h' -> content_type (with_order E h) i = Ok (r, (t, s, l)) ->
  exists l', content_type (with_order E h') i = Ok (r, (t, s, l')) /\ same_map l l'.
Proof.
  intros E h h' i r t s l Hh Hh' H. pose proof (content_type_order E h h' Hh Hh' i) as K. rewrite H in K. destruct (content_type (with_order E h') i) as [[r' [[t' s'] l']]| |]; cbn in K; [|easy|easy].
  destruct K as (-> & -> & -> & K). eauto.
Qed.
Lemma disposition_any_order : forall E h h' i r d, an_order h -> an_order h' -> content_disposition (with_order E h) i = Ok (r, d) ->
  exists d', content_disposition (with_order E h') i = Ok (r, d') /\ same_disposition_t d d'.
Proof.
  intros E h h' i r d Hh Hh' H. pose proof (disposition_order E h h' Hh Hh' i) as K. rewrite H in K. destruct (content_disposition (with_order E h') i) as [[r' d']| |]; cbn in K; [|easy|easy].
  destruct K as [K1 K2]. cbn in K1, K2. subst. eauto.
Qed.
Lemma order_nil : forall E, an_order (hash_order E) -> hash_order E [] = [].
Proof. intros E H. apply Permutation_nil, Permutation_sym, H. Qed.
Lemma order_one : forall E n, an_order (hash_order E) -> hash_order E [n] = [n].
Proof. intros E n H. apply Permutation_length_1_inv, Permutation_sym, H. Qed.
Lemma percent_A : percent_encodes (bs "A") (bs "%41").
Proof. apply (pe_escape 65 52 49 4 1); try reflexivity. constructor. Qed.

Ltac run := match goal with |- context [debug ?E] => idtac | _ => idtac end.
Lemma extended_raw : exists t u, percent_encodes u t /\ utf8_valid u = true /\
  forall E, an_order (hash_order E) ->
    content_type E (bs "Content-Type: text/plain; title*=utf-8''" ++ t ++ CRLF) = Ok ([], (CText, bs "plain", [(bs "title", bs "utf-8''" ++ t)])) /\
    bs "utf-8''" ++ t <> u.
Proof.
  exists (bs "%41"), (bs "A"). split; [exact percent_A|]. split; [reflexivity|]. intros E HE. split; [|discriminate].
  pose proof (order_nil E HE) as O. destruct E. cbn in O. destruct debug; vm_compute; rewrite O; reflexivity.
Qed.
Lemma extended_filename : exists t u, percent_encodes u t /\ utf8_valid u = true /\
  forall E, an_order (hash_order E) -> exists d d',
    content_disposition E (bs "Content-Disposition: attachment; filename*=utf-8''" ++ t ++ CRLF) = Ok ([], d) /\ disp_filename d = None /\
    content_disposition E (bs "Content-Disposition: attachment; filename*0*=utf-8''" ++ t ++ CRLF) = Ok ([], d') /\ disp_filename d' = None.
Proof.
  exists (bs "%41"), (bs "A"). split; [exact percent_A|]. split; [reflexivity|]. intros E HE.
  pose proof (order_nil E HE) as O. pose proof (order_one E (bs "filename") HE) as O1. destruct E. cbn in O, O1. change (bs "filename") with [102; 105; 108; 101; 110; 97; 109; 101]%N in O1.
  do 2 eexists. split; [destruct debug; vm_compute; rewrite O; reflexivity|]. split; [reflexivity|]. split; [destruct debug; vm_compute; rewrite O1; reflexivity|]. reflexivity.
Qed.

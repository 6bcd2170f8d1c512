(* Proof of C55: corollaries of DebugFacts.v and DebugPanic.v. *)
From Coq Require Import Permutation Lia.
From Verif Require Import Base Base64 QuotedPrintable Utf8 CharSets Combinators Percent MimeFields Fields Message Entity Email Envs EnvOk EmailSpec ParamSpec Base64Proofs QPProofs CodecSpec SafetyProofs OrderFacts RegularSpec
  ExactSpec PhraseSpec MimeExactSpec MimeExactFacts DebugSpec DebugFacts DebugPanic.

Lemma release_ok : forall E, env_ok E -> env_ok (release E).
Proof. intros E []. constructor; auto. Qed.
Lemma agree_ok : forall A (x y : res A) a, unless_crash x y -> x = Ok a -> y = Ok a.
Proof. intros A x y a [->|[k ->]] H; congruence. Qed.
Lemma agree_err : forall A (x y : res A) e, unless_crash x y -> x = Err e -> y = Err e.
Proof. intros A x y a [->|[k ->]] H; congruence. Qed.
Lemma parse_same : forall E d, env_ok E -> semicolons d < 256 -> parse E d = parse (release E) d.
Proof. intros E d HE H. destruct (parse_un E d) as [X|[k X]]; [exact X|]. exfalso. apply (parse_panic_full E d k HE), full_semicolons in X. lia. Qed.
Lemma raw_entity_same : forall E d, env_ok E -> semicolons d < 256 -> raw_entity E d = raw_entity (release E) d.
Proof. intros E d HE H. destruct (raw_entity_un E d) as [X|[k X]]; [exact X|]. exfalso. apply (raw_entity_panic_full E d k HE), full_semicolons in X. lia. Qed.
Lemma entity_same : forall E r, env_ok E -> semicolons (e_value r) < 256 -> entity E r = entity (release E) r.
Proof. intros E d HE H. destruct (entity_un E d) as [X|[k X]]; [exact X|]. exfalso. apply (entity_panic_full E d k HE) in X as [_ X]. apply full_semicolons in X. lia. Qed.
Lemma parse_nomime_same : forall E d, env_ok E -> f_mime E = false -> parse E d = parse (release E) d.
Proof. intros E d HE H. destruct (parse_un E d) as [X|[k X]]; [exact X|]. exfalso. apply (parse_crash E d k HE) in X as (_ & X & _). congruence. Qed.
Lemma parse_debug_total : forall E d, env_ok E -> semicolons d < 256 -> (exists e, parse E d = Ok e) \/ (exists err, parse E d = Err err).
Proof. intros E d HE H. rewrite (parse_same E d HE H). apply parse_total; [now apply release_ok|now left]. Qed.
Lemma decode_base64_same : forall E d, decode_base64 E d = decode_base64 (release E) d.
Proof.
  intros E d. destruct (decode_base64_un E d) as [X|[k X]]; [exact X|]. exfalso. pose proof (decode_base64_spec E d) as S. destruct (b64_decoding d); [congruence|]. destruct S as [w S]. congruence.
Qed.
Lemma codecs_same : forall E d, decode_base64 E d = decode_base64 (release E) d /\ decode_qp E d = decode_qp (release E) d
  /\ unless_crash (encode_base64 E d) (encode_base64 (release E) d) /\ unless_crash (encode_qp E d) (encode_qp (release E) d).
Proof. intros E d. split; [apply decode_base64_same|]. split; [now rewrite !decode_qp_spec|]. split; [apply encode_base64_un|apply encode_qp_un]. Qed.
Lemma parse_debug_exact : forall E, env_ok E -> f_mime E = true -> forall d, semicolons d < 256 ->
  (exists e, parse E d = Ok e) <-> exists fs b e, mime_message_read (release E) d fs b /\ email_of (release E) fs b e.
Proof. intros E HE HM d H. rewrite (parse_same E d HE H). exact (mime_parse_iff (release E) (release_ok E HE) HM eq_refl d). Qed.
Lemma parse_debug_order : forall E h h' data, env_ok E -> semicolons data < 256 -> an_order h -> an_order h' ->
  same_result same_email (parse (with_order E h) data) (parse (with_order E h') data).
Proof.
  intros E h h' data HE H Hh Hh'. assert (O : forall h, an_order h -> env_ok (with_order E h)) by (intros h0 Hh0; destruct HE; constructor; auto).
  rewrite (parse_same (with_order E h) data (O h Hh) H), (parse_same (with_order E h') data (O h' Hh') H). exact (parse_order_result (release E) h h' data (release_ok E HE) eq_refl Hh Hh').
Qed.

(* ---- a mail on which a debug build does not always do the same ---- *)
Definition decimal (n : nat) : bytes :=
  map (fun d => (N.of_nat d + 48)%N) (if n <? 10 then [n] else if n <? 100 then [n / 10; n mod 10] else [n / 100; n / 10 mod 10; n mod 10]).
(* a parameter that is no extended value, and one with 256 segments *)
Definition torn_header : bytes :=
  bs "Content-Type:a/b;a*0*=x" ++ concat (map (fun k => bs ";b*" ++ decimal k ++ bs "=y") (seq 0 256)) ++ CRLF.
Definition torn_mail : bytes := bs "From:a@b" ++ CRLF ++ bs "Date: 1 Jan 2020 10:00 +0000" ++ CRLF ++ torn_header.
Lemma torn_orders : exists E h h' d e, env_ok E /\ an_order h /\ an_order h' /\
  parse (with_order E h) d = Ok e /\ parse (with_order E h') d = Crash (Panic "attempt to add with overflow").
Proof.
  assert (X : exists e, parse (with_order env_all_debug (fun l => l)) torn_mail = Ok e).
  { assert (Y : (match parse (with_order env_all_debug (fun l => l)) torn_mail with Ok _ => true | _ => false end) = true) by (vm_compute; reflexivity).
    destruct (parse (with_order env_all_debug (fun l => l)) torn_mail) as [e| |]; try discriminate. eauto. }
  destruct X as [e X]. exists env_all_debug, (fun l => l), (@rev bytes), torn_mail, e. split; [exact env_all_debug_ok|]. split; [intros l; reflexivity|].
  split; [intros l; apply Permutation_sym, Permutation_rev|]. split; [exact X|]. vm_compute. reflexivity.
Qed.

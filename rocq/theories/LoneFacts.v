(* C75: carriage returns and line feeds that do not belong to a line end. *)
From Coq Require Import Lia ZifyBool ZifyNat ZifyN.
From Verif Require Import Base Utf8 Combinators Time Address MimeFields Fields Message Entity Email Envs Rfc5322 CodecSpec Base64Proofs RfcFields EmailSpec SoundMessage EmailProofs SafetyProofs Steps ForwardFields ForwardMessage HeaderFacts LinedFacts LineSpec LocalSpec LocalFacts LineFacts
  MessageFacts RefuseFacts Post EntitySpec EntityProofs EntityFacts TruncSpec TruncFacts LoneSpec.
Local Open Scope N_scope.

(* texts made of line ends and of other characters *)
Inductive clean (P : byte -> Prop) : bytes -> Prop :=
| clean_nil : clean P []
| clean_char : forall c d, P c -> c <> 13 -> c <> 10 -> clean P d -> clean P (c :: d)
| clean_crlf : forall d, clean P d -> clean P (13 :: 10 :: d).
Lemma clean_app : forall P a b, clean P a -> clean P b -> clean P (a ++ b).
Proof. intros P a b H Hb. induction H; cbn [app]; [exact Hb|now apply clean_char|now apply clean_crlf]. Qed.
Lemma clean_chars : forall P a, chars (fun c => P c /\ c <> 13 /\ c <> 10) a -> clean P a.
Proof. intros P a H. induction H as [|c a (H1 & H2 & H3) H IH]; constructor; auto. Qed.
Lemma clean_sub : forall (P Q : byte -> Prop) a, (forall c, P c -> Q c) -> clean P a -> clean Q a.
Proof. intros P Q a HPQ H. induction H; [apply clean_nil|apply clean_char; auto|now apply clean_crlf]. Qed.
Lemma clean_paired : forall P d, clean P d -> paired d.
Proof.
  intros P d H. induction H as [|c d Hc H1 H2 H [IH1 IH2]|d H [IH1 IH2]]; split.
  - intros [|x a] b X; discriminate.
  - intros [|x a] b X; discriminate.
  - intros [|x a] b X; injection X as X1 X; [congruence|]. exact (IH1 _ _ X).
  - intros [|x a] b X; injection X as X1 X; [congruence|]. destruct (IH2 _ _ X) as [a' ->]. subst x. exists (c :: a'). reflexivity.
  - intros [|x [|y a]] b X; cbn [app] in X; [injection X as <-; now exists d|discriminate|]. injection X as X1 X2 X. exact (IH1 _ _ X).
  - intros [|x [|y a]] b X; cbn [app] in X; [discriminate|injection X as <- _; now exists []|]. injection X as X1 X2 X. destruct (IH2 _ _ X) as [a' ->]. subst x y. exists (13 :: 10 :: a'). reflexivity.
Qed.
Lemma clean_bytes : forall P d, clean P d -> Forall (fun c => P c \/ c = 13 \/ c = 10) d.
Proof. intros P d H. induction H; repeat (apply Forall_cons; [auto|]); auto. Qed.
Definition ink (c : byte) : Prop := rfc_VCHAR c \/ rfc_WSP c.
Lemma ink_proper : forall c, ink c -> c <> 13 /\ c <> 10.
Proof. intros c [H|H]; unfold rfc_VCHAR, rfc_WSP in H; lia. Qed.
Lemma lined_clean : forall t, lined t -> clean ink t.
Proof.
  intros t H. induction H as [|c t Hc H IH|w t Hw H IH]; [constructor| |]; [destruct (ink_proper c Hc); now constructor|].
  apply clean_crlf. destruct (ink_proper w (or_intror Hw)). constructor; auto. now right.
Qed.
Lemma hlines_clean : forall h, hlines h -> clean ink h.
Proof.
  intros h H. induction H as [|c d Hc H IH]; [constructor|]. apply clean_app; [|exact IH]. destruct Hc as [n t [_ Hn] Ht]. apply clean_app.
  - apply clean_chars. eapply Forall_impl; [|exact Hn]. intros c Hc. unfold rfc_ftext in Hc. unfold ink, rfc_VCHAR. lia.
  - apply clean_app; [apply clean_chars; apply Forall_cons; [unfold ink, rfc_VCHAR; lia|apply Forall_nil]|]. apply clean_app; [now apply lined_clean|]. apply clean_crlf, clean_nil.
Qed.
Lemma clean_headers : forall h, clean ink h -> Forall header_byte h.
Proof. intros h H. apply clean_bytes in H. eapply Forall_impl; [|exact H]. intros c [[Hc|Hc]|Hc]; unfold header_byte; auto. Qed.
Lemma hlines_in : forall h, hlines h -> in_headers h.
Proof.
  intros h H. apply hlines_nolf in H. split.
  - intros x ->. apply (H [13] (10 :: x)). reflexivity.
  - intros a b ->. apply (H (CRLF ++ a ++ [13]) (10 :: b)). rewrite <- !app_assoc. reflexivity.
Qed.
Definition seventh (c : byte) : Prop := 1 <= c <= 127.
Lemma body_clean : forall b, body_text b -> clean seventh b.
Proof.
  intros b. unfold body_text. remember (length b) as n eqn:Hn. revert b Hn.
  induction n as [n IH] using lt_wf_ind; intros b -> H. destruct b as [|c b]; [constructor|].
  destruct (starts_with (c :: b) CRLF) eqn:S.
  - apply starts_with_spec in S as [r S]. rewrite S in *. pose proof (lines_of_app [] r ltac:(constructor)) as L. cbn [app] in L. rewrite L in H. inversion H; subst. apply clean_crlf. apply (IH (length r)); auto. rewrite app_length. cbn. lia.
  - rewrite lines_cons in H by exact S. destruct (lines_nonempty b) as (h & t & L). rewrite L in H. cbn [add_to_first] in H. inversion H as [|? ? [H1 H2] H3]; subst. inversion H2 as [|? ? H4 H5]; subst.
    unfold rfc_text in H4. apply clean_char; [unfold seventh; lia|lia|lia|]. apply (IH (length b)); [cbn; lia|reflexivity|]. rewrite L. constructor; [|exact H3]. split; [cbn [length] in H1; lia|exact H5].
Qed.

(* ---- accepted mails ---- *)
Theorem accepted_headers : forall E d e, env_ok E -> parse E d = Ok e -> exists h r, d = h ++ r /\ (r = [] \/ exists b, r = CRLF ++ b) /\ in_headers h /\ paired h /\ Forall header_byte h.
Proof.
  intros E d e HE P. destruct (no_byte_lost E d e HE P) as (texts & fs & b & F & _ & D & _).
  assert (H : hlines (concat texts)). { clear - F. induction F as [|c f cs l H F IH]; [constructor|]. cbn [concat]. apply hlines_app; [eapply field_hlines; eauto|exact IH]. }
  pose proof (hlines_clean _ H) as C. exists (concat texts). destruct D as [[_ ->]|(t & _ & ->)]; eexists; (split; [|split; [|split; [now apply hlines_in|split; [eapply clean_paired; eauto|now apply clean_headers]]]]); [now rewrite app_nil_r|now left|reflexivity|right; eauto].
Qed.
Theorem accepted_mail : forall E d e, env_ok E -> f_mime E = false -> parse E d = Ok e -> paired d /\ Forall (fun c => 1 <= c <= 127) d.
Proof.
  intros E d e HE HM P. destruct (no_byte_lost E d e HE P) as (texts & fs & b & F & _ & D & O).
  assert (H : hlines (concat texts)). { clear - F. induction F as [|c f cs l H F IH]; [constructor|]. cbn [concat]. apply hlines_app; [eapply field_hlines; eauto|exact IH]. }
  assert (C : clean seventh d).
  { assert (K : clean seventh (concat texts)). { eapply clean_sub; [|exact (hlines_clean _ H)]. intros c [Hc|Hc]; unfold rfc_VCHAR, rfc_WSP in Hc; unfold seventh; lia. }
    destruct D as [[_ ->]|(t & Hb & ->)]; [exact K|]. apply clean_app; [exact K|]. apply clean_crlf. apply body_clean.
    destruct (parse_ok_message E _ e P) as (fs' & b' & M). pose proof (proj1 (parse_iff_email E _ _ _ _ HE M) P) as O'. pose proof (of_body _ _ _ _ O) as B1. pose proof (of_body _ _ _ _ O') as B2. rewrite HM in B1, B2.
    apply message_ok in M as (r & _ & _ & _ & M). apply (M HM). exact (eq_trans (eq_sym B2) (eq_trans B1 Hb)). }
  split; [eapply clean_paired; eauto|]. apply clean_bytes in C. eapply Forall_impl; [|exact C]. unfold seventh. intros c [X|[->| ->]]; lia.
Qed.

(* ---- refused mails ---- *)
Lemma misplaced_not_bare : forall h r a c b, hlines h -> in_headers a -> misplaced a c b -> a ++ c :: b = h ++ r -> ~ bare r.
Proof.
  intros h r a c b H [H1 H2] HM D R. pose proof (hlines_clean _ H) as C. pose proof (clean_paired _ _ C) as [C1 C2]. pose proof (clean_headers _ C) as C3.
  symmetry in D. apply app_eq_app in D as (l & [[D1 D2]|[D1 D2]]).
  - destruct l as [|z l].
    + (* the byte is the first one after the headers *)
      destruct R as [->|[y ->]]; [discriminate|]. injection D2 as -> ->. inversion HM as [|? N|? ? N]; subst; [exact (N y eq_refl)|]. apply N. unfold header_byte. auto.
    + (* it is in the headers *)
      injection D2 as -> ->. inversion HM as [? N|? N|? ? N]; subst.
      * destruct (C2 a l eq_refl) as [a' ->]. exact (N a' eq_refl).
      * destruct (C1 a l eq_refl) as [b' ->]. exact (N (b' ++ r) eq_refl).
      * apply N. rewrite Forall_forall in C3. apply C3. apply in_or_app. right. now left.
  - (* it is after the first byte that follows the headers *)
    destruct l as [|z l]; [|].
    + destruct R as [->|[y ->]]; [discriminate|]. injection D2 as <- <-. inversion HM as [|? N|? ? N]; subst; [exact (N y eq_refl)|]. apply N. unfold header_byte. auto.
    + destruct R as [->|[y ->]]; [discriminate|]. injection D2 as <- D2. destruct l as [|z l].
      * injection D2 as <- <-. inversion HM as [? N| |? ? N]; subst; [exact (N h eq_refl)|]. apply N. unfold header_byte. auto.
      * injection D2 as <- D2. subst a. destruct (hlines_ends h H) as [->|[u ->]]; [exact (H1 l eq_refl)|]. apply (H2 u l). now rewrite <- app_assoc.
Qed.
Theorem misplaced_refused : forall E a c b, env_ok E -> debug E = false \/ f_mime E = false -> in_headers a -> misplaced a c b -> parse E (a ++ c :: b) = Err (Explicit "TAG ERROR: Headers must be followed by a CRLF sequence.").
Proof.
  intros E a c b HE HD HA HM. destruct (fields_total E HE HD (a ++ c :: b)) as (r & fs & F).
  pose proof (sound_fields_env E (a ++ c :: b) HE) as S. rewrite F in S. destruct S as (h & D & S).
  assert (H : hlines h) by (eapply hlines_many; [|exact S]; intros; eapply field_hlines; eauto). pose proof (misplaced_not_bare h r a c b H HA HM D) as G.
  unfold parse, parse_message. rewrite F. cbn [bind]. rewrite body_stop; [reflexivity| |].
  - intros ->. apply G. now left.
  - destruct (starts_with r CRLF) eqn:W; [|reflexivity]. exfalso. apply G. right. apply starts_with_spec in W as [y W]. eauto.
Qed.
Theorem unix_refused : forall E d, env_ok E -> debug E = false \/ f_mime E = false -> d <> [] -> ~ In 13 d -> parse E d = Err (Explicit "TAG ERROR: Headers must be followed by a CRLF sequence.").
Proof.
  intros E d HE HD Hd H. apply cut_inside; auto.
  - split; [intros x ->|intros a b ->]; apply H; [now left|apply in_or_app; right; now left].
  - split; [exact Hd|]. intros a ->. apply H. apply in_or_app. right. now left.
Qed.

(* ---- the parts of multiparts ---- *)
Lemma part_hline : forall E c h, part_header E c h -> hline c.
Proof. intros E c h H. destruct H; try (eapply unknown_hline; eassumption); lazymatch goal with H : rfc_header _ _ _ _ |- _ => hl H; lv end. Qed.
Lemma part_shape : forall E i hs b, part_text E i hs b -> exists h r, i = h ++ r /\ hlines h /\ bare r.
Proof.
  intros E i hs b (h & r & -> & H & R). exists h, r. split; [reflexivity|]. split; [eapply hlines_many; [|exact H]; intros; apply hlines_one; eapply part_hline; eauto|].
  destruct R as [[-> _]| ->]; [now left|right; eauto].
Qed.
Theorem accepted_part : forall E i x, env_ok E -> raw_entity E i = Ok x -> exists h r, i = h ++ r /\ (r = [] \/ exists b, r = CRLF ++ b) /\ in_headers h /\ paired h /\ Forall header_byte h.
Proof.
  intros E i x HE P. destruct (raw_entity_sound E i x HE P) as (hs & b & T & _). destruct (part_shape E i hs b T) as (h & r & D & H & R). pose proof (hlines_clean _ H) as C.
  exists h, r. split; [exact D|]. split; [exact R|]. split; [now apply hlines_in|]. split; [eapply clean_paired; eauto|now apply clean_headers].
Qed.
Theorem misplaced_part : forall E a c b, env_ok E -> debug E = false -> in_headers a -> misplaced a c b -> raw_entity E (a ++ c :: b) = Err (Explicit "TAG ERROR: A MIME entity header part must be followed by a CRLF sequence.").
Proof.
  intros E a c b HE HD HA HM. pose proof (header_part_spec E (a ++ c :: b) (ok_hash E HE)) as S. unfold raw_entity. destruct (header_part E (a ++ c :: b)) as [[n x]|e|k]; cbn [bind].
  - exfalso. destruct S as (hs & c0 & b0 & T & _). destruct (part_shape E _ hs b0 T) as (h & r & D & H & R). exact (misplaced_not_bare h r a c b H HA HM D R).
  - rewrite S. reflexivity.
  - exfalso. destruct S as [S _]. congruence.
Qed.

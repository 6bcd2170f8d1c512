(* C22: a header line that is not a recognised header is among the unknown fields. *)
From Coq Require Import Lia ZifyBool ZifyNat ZifyN Permutation.
From Verif Require Import Base Utf8 CharSets Combinators Whitespace QuotedString Common Time Address Percent MimeFields Fields Message Entity Email Envs
  Rfc5322 Rfc2047 Post CodecSpec RfcFields SoundBase SoundTime SoundAddr TagNoCase ParamProofs SoundFields EmailSpec SoundMessage EmailProofs MessageFacts Steps Complete CompleteFields Forward ForwardText
  ForwardFields ForwardMessage HeaderFacts LocalSpec Local LocalFacts RecaseFacts.
Local Open Scope N_scope.

Lemma lrel_self : forall A (R : bytes -> bytes -> Prop) (x : res (bytes * A)) r a, lrel R x x -> x = Ok (r, a) -> R r r.
Proof. intros A R x r a H ->. exact (proj2 H). Qed.
Lemma later_self : forall t r, later t t r r -> (exists z, r = z ++ CRLF ++ t) \/ r = t.
Proof. intros t r [(z & H & _)|[H _]]; eauto. Qed.
(* a sequence of headers that starts before [t] stops before it, or goes through it *)
Lemma many_through : forall A (p : parser A) t, hlocal t t p -> progress p -> forall n i r l, later t t i i -> (length i < n)%nat -> many_fuel n p i = Ok (r, l) ->
  (exists z, r = z ++ CRLF ++ t) \/ (r = t /\ exists e, p t = Err e) \/ exists r' a, p t = Ok (r', a) /\ In a l.
Proof.
  intros A p t HL HP. induction n as [|n IH]; intros i r l N L H; [lia|]. cbn [many_fuel] in H. pose proof (HP i) as P.
  destruct (p i) as [[r1 a]|e|k] eqn:X; cbn [attempt] in H; [|inversion H; subst|discriminate].
  - destruct (many_fuel n p r1) as [[r2 l2]|e|k] eqn:Y; cbn [bind] in H; inversion H; subst. specialize (P _ _ eq_refl). destruct N as [N|[-> _]].
    + pose proof (lrel_self _ _ _ _ _ (HL i i N) X) as N1. destruct (IH r1 r l2 N1 ltac:(lia) Y) as [Z|[Z|(r' & b & Z & W)]]; auto. right; right. exists r', b. split; [exact Z|now right].
    + right; right. exists r1, a. split; [exact X|now left].
  - apply later_self in N as [N| ->]; [now left|]. right; left. split; [reflexivity|]. eauto.
Qed.
Section Kept.
Variables (E : env) (n c v i : bytes).
Hypothesis HE : env_ok E.
Hypothesis Hn : chars1 rfc_ftext n.
Hypothesis Hv : clear_text_value (f_unrecognized_headers E) (textcode E) c v.
Hypothesis Hi : ends is_wsp i.
Hypothesis Hbad : malformed E (n ++ [58] ++ c ++ CRLF).
Local Notation t := (n ++ [58] ++ c ++ CRLF ++ i).
Lemma kept_near : near i i t t.
Proof. exists (n ++ [58] ++ c). now rewrite <- !app_assoc. Qed.
Lemma kept_prefix : forall x r, t = x ++ r -> later i i r r -> exists y, n ++ [58] ++ c ++ CRLF = x ++ y.
Proof.
  intros x r H L. apply later_self in L as [[z ->]| ->].
  - exists (z ++ CRLF). apply (app_inv_tail i). rewrite <- !app_assoc. exact H.
  - exists []. rewrite app_nil_r. apply (app_inv_tail i). rewrite <- !app_assoc. exact H.
Qed.
Lemma kept_no : forall A (p : parser A) (V : bytes -> A -> Prop), hlocal i i p -> post never (p t) t V -> (forall x a, V x a -> structured_line E x) -> exists e, p t = Err e.
Proof.
  intros A p V HL HP HS. destruct (p t) as [[r a]|e|k] eqn:X; [|eauto|contradiction]. exfalso. destruct HP as (x & Hx & Ha).
  destruct (kept_prefix x r Hx) as (y & Y). { apply (lrel_self _ _ _ _ _ (HL t t kept_near) X). } exact (Hbad x y Y (HS _ _ Ha)).
Qed.
Lemma kept_any : forall r f, any_field E t = Ok (r, f) -> f = FUnknown n v.
Proof.
  intros r f H. pose proof (any_field_split E t) as S. destruct (match_parsers (structured_parsers E) t) as [[r' f']|e|k] eqn:M.
  - rewrite H in S. inversion S; subst r' f'. exfalso. destruct (any_field_sound E t r f HE H) as (x & Ex & Hx).
    destruct (kept_prefix x r Ex) as (y & Y). { apply (lrel_self _ _ _ _ _ (hlocal_any_field i i Hi Hi E t t kept_near) H). }
    apply (Hbad x y Y). apply (structured_field E x f Hx). exact (structured_ok _ _ _ _ M).
  - rewrite H in S. revert S. cbn [match_parsers]. unfold pmap. rewrite (unknown_forward E n c v i Hn Hv Hi). cbn. intros S. now inversion S.
  - rewrite H in S. discriminate.
Qed.
Lemma kept_some : forall e, any_field E t <> Err e.
Proof.
  intros e H. pose proof (any_field_split E t) as S. destruct (match_parsers (structured_parsers E) t) as [[r' f']|e'|k] eqn:M; rewrite H in S; try discriminate.
  revert S. cbn [match_parsers]. unfold pmap. rewrite (unknown_forward E n c v i Hn Hv Hi). cbn. discriminate.
Qed.
Lemma kept_ends : ends is_wsp t.
Proof. now apply ftext_ends. Qed.
Lemma kept_block : f_trace E = true -> rlocal (later t t) (trace_block E).
Proof.
  intros HT. pose proof kept_ends as W.
  assert (B : forall A (p : parser A), hlocal t t p -> (exists e, p t = Err e) -> rlocal (later t t) p). { intros A p H1 [e H2] j j' [N|[-> ->]]; [now apply H1|]. rewrite H2. exact I. }
  apply rlocal_block; apply B.
  - now apply hlocal_return_path.
  - eapply kept_no; [now apply hlocal_return_path|apply (sound_header _ E never _ _ "Return-Path"); [reflexivity|reflexivity|]; intros; apply sound_path|]. intros x a. now apply structured_return.
  - now apply hlocal_received.
  - eapply kept_no; [now apply hlocal_received|apply (sound_header _ E never _ _ "Received"); [reflexivity|reflexivity|]; intros; apply sound_received_value|]. intros x a. now apply structured_received.
  - now apply hlocal_resent_field.
  - eapply kept_no; [now apply hlocal_resent_field|apply sound_resent_field with (K := never)|]. intros x a. now apply structured_resent.
Qed.
Lemma kept_message : forall pre fs b, header_start pre -> parse_message E (pre ++ t) = Ok (fs, b) -> In (FUnknown n v) fs.
Proof.
  intros pre fs b Hpre H. unfold parse_message in H. destruct (fields E (pre ++ t)) as [[r l]|e|k] eqn:X; cbn [bind] in H; try discriminate.
  assert (l = fs). { revert H. lazymatch goal with |- context [@bind (option bytes) _ ?x _] => destruct x as [b'|e|k] end; cbn [bind]; try discriminate. intros H. now inversion H. } subst l.
  assert (N : later t t (pre ++ t) (pre ++ t)). { destruct Hpre as [->|(h & Hh & ->)]; [right; auto|left]. exists h. now rewrite <- !app_assoc. }
  pose proof X as X0. unfold fields in X.
  assert (T : lrel (later t t) (if f_trace E then many (trace_block E) (pre ++ t) else Ok (pre ++ t, [])) (if f_trace E then many (trace_block E) (pre ++ t) else Ok (pre ++ t, []))).
  { destruct (f_trace E) eqn:HT; [|now apply lrel_ok]. apply rlocal_many; auto using progress_block, kept_block. }
  lazymatch type of X with bind ?x _ = _ => change (lrel (later t t) x x) in T; destruct x as [[r1 l1]|e|k] end; cbn [bind] in X; try discriminate. destruct T as [_ N1].
  destruct (many (any_field E) r1) as [[r2 l2]|e|k] eqn:M; cbn [bind] in X; inversion X; subst r2 fs. apply in_or_app. right. unfold many in M.
  destruct (many_through _ (any_field E) t (hlocal_any_field t t kept_ends kept_ends E) (progress_any_field E HE) _ _ _ _ N1 (Nat.lt_succ_diag_r _) M) as [[z ->]|[[-> [e W]]|(r' & a & W & Z)]].
  - exfalso. apply fields_stop in X0 as (d & X0 & Hd); auto. destruct Hpre as [->|(h & Hh & ->)].
    + apply (f_equal (@length _)) in X0. rewrite !app_length in X0. cbn in X0. rewrite ?app_length in X0. cbn in X0. lia.
    + assert (X' : h ++ CRLF ++ t = d ++ z ++ CRLF ++ t) by (rewrite <- X0; now rewrite <- !app_assoc).
      pose proof (header_block_stop h d z _ t Hh X' Hd) as S. assert (Nz : forall x, z ++ CRLF ++ x <> []) by (intros; destruct z; discriminate).
      assert (Y := body_stop (f_mime E) _ (Nz _) S). revert H. rew_bind Y. discriminate.
  - exfalso. exact (kept_some e W).
  - pose proof (kept_any _ _ W) as ->. exact Z.
Qed.
End Kept.
Lemma in_pick : forall A (sel : field -> option A) fs f a, In f fs -> sel f = Some a -> In a (pick sel fs).
Proof. intros A sel fs f a H S. unfold pick. apply in_concat. exists (opt_list (sel f)). split; [apply in_map_iff; eauto|]. rewrite S. now left. Qed.
Lemma malformed_email : forall E pre n c v i e, env_ok E -> header_start pre -> chars1 rfc_ftext n -> clear_text_value (f_unrecognized_headers E) (textcode E) c v -> ends is_wsp i ->
  malformed E (n ++ bs ":" ++ c ++ CRLF) -> parse E (pre ++ n ++ bs ":" ++ c ++ CRLF ++ i) = Ok e -> In (n, v) (unknown_fields e).
Proof.
  intros E pre n c v i e HE Hpre Hn Hv Hi Hbad H. destruct (parse_ok_message _ _ _ H) as (fs & b & M). apply (parse_iff_email E _ fs b e HE M) in H. destruct H. rewrite of_unknown.
  eapply in_pick; [exact (kept_message E n c v i HE Hn Hv Hi Hbad pre fs b Hpre M)|reflexivity].
Qed.

(* ---- a From header without "@" ---- *)
Lemma from_has_at : forall compat EW c l, rfc_mailbox_list compat EW c l -> In 64 c.
Proof.
  intros compat EW c l H. assert (M : forall c m, rfc_mailbox compat EW c m -> In 64 c).
  { assert (A : forall c a, rfc_addr_spec compat c a -> In 64 c) by (intros ? ? []; apply in_or_app; right; now left).
    assert (G : forall c a, rfc_angle_addr compat c a -> In 64 c). { intros ? ? [l0 c0 a r _ Ha _]. apply in_or_app; right. apply in_or_app; right. apply in_or_app; left. exact (A _ _ Ha). }
    intros ? ? [c1 n c2 a _ Ha|c0 a Ha|c0 a Ha]; eauto. apply in_or_app. right. eauto. }
  destruct H; eauto. apply in_or_app. left. eauto.
Qed.
Definition other_names : list string :=
  ["Date"; "Sender"; "Reply-To"; "To"; "Cc"; "Bcc"; "Message-ID"; "In-Reply-To"; "References"; "Subject"; "Comments"; "Keywords"; "MIME-Version"; "Content-Type";
   "Content-Transfer-Encoding"; "Content-ID"; "Content-Description"; "Content-Disposition"; "Return-Path"; "Received"; "Resent-Date"; "Resent-From"; "Resent-Sender";
   "Resent-To"; "Resent-Cc"; "Resent-Bcc"; "Resent-Message-ID"]%string.
Lemma header_named : forall A name (V : bytes -> A -> Prop) x v, rfc_header name V x v -> exists n r, x = n ++ [58] ++ r /\ same_nocase n (bs name).
Proof. intros A name V x v [n c v' H _]. eauto. Qed.
Lemma structured_names : forall E x, structured_line E x -> (exists l, rfc_header "From" (rfc_mailbox_list (f_compatibility_fixes E) (encoded E)) x l) \/
  exists name n r, In name other_names /\ x = n ++ [58] ++ r /\ same_nocase n (bs name).
Proof.
  intros E x H. assert (G : forall A name (V : bytes -> A -> Prop) x v y, rfc_header name V x v -> In name other_names -> exists name n r, In name other_names /\ x ++ y = n ++ [58] ++ r /\ same_nocase n (bs name)).
  { intros A name V z v y Hh Hi. apply header_named in Hh as (n & r & -> & Hn). exists name, n, (r ++ y). now rewrite <- !app_assoc. }
  assert (G' : forall A name (V : bytes -> A -> Prop) x v, rfc_header name V x v -> In name other_names -> exists name n r, In name other_names /\ x = n ++ [58] ++ r /\ same_nocase n (bs name)).
  { intros A name V z v Hh Hi. rewrite <- (app_nil_r z). eapply G; eauto. }
  destruct H as [f H U|v _ H|v _ H|v _ H].
  - destruct H; try (right; eapply G'; [eassumption|unfold other_names; cbn; tauto]); [left; eauto| |discriminate].
    right. destruct H0 as [|c1 p H0].
    + destruct H2 as [|z a zs l0 H2 _]; [congruence|]. cbn [app]. rewrite <- app_assoc. eapply G; [exact H2|]. unfold other_names; cbn; tauto.
    + eapply G; [exact H0|]. unfold other_names; cbn; tauto.
  - right. eapply G'; [eassumption|unfold other_names; cbn; tauto].
  - right. eapply G'; [eassumption|unfold other_names; cbn; tauto].
  - right. destruct H; eapply G'; try eassumption; unfold other_names; cbn; tauto.
Qed.
Lemma from_malformed : forall E n c, same_nocase n (bs "From") -> ~ In 64 c -> malformed E (n ++ [58] ++ c ++ CRLF).
Proof.
  intros E n c Hn Hc x y Hx Hs. assert (Nc : ~ In 58 n) by (eapply fold_nocolon; [exact Hn|no_colon]). apply structured_names in Hs as [[l H]|(name & m & r & Hi & -> & Hm)].
  - destruct H as [m c' l Hm Hl]. apply from_has_at in Hl. rewrite <- app_assoc in Hx. cbn [app] in Hx. apply colon_unique in Hx as [-> Hx]; auto; [|eapply fold_nocolon; [exact Hm|no_colon]].
    assert (I : In 64 (c ++ CRLF)). { unfold bytes, byte in *. rewrite Hx. apply in_or_app. left. apply in_or_app. now left. }
    apply in_app_or in I as [I|I]; [now apply Hc|]. cbn in I. lia.
  - rewrite <- app_assoc in Hx. cbn [app] in Hx.
    assert (Nm : ~ In 58 m). { apply (fold_nocolon m (bs name) Hm). unfold other_names in Hi. cbn [In] in Hi. repeat destruct Hi as [<-|Hi]; try no_colon. contradiction. }
    apply colon_unique in Hx as [-> _]; auto. revert Hm. unfold other_names in Hi. cbn [In] in Hi. repeat destruct Hi as [<-|Hi]; try (eapply nocase_differs; [exact Hn|reflexivity]). contradiction.
Qed.
Lemma from_without_at : forall E pre n c v i e, env_ok E -> header_start pre -> same_nocase n (bs "From") -> ~ In 64 c -> clear_text_value (f_unrecognized_headers E) (textcode E) c v -> ends is_wsp i ->
  parse E (pre ++ n ++ bs ":" ++ c ++ CRLF ++ i) = Ok e -> In (n, v) (unknown_fields e).
Proof.
  intros E pre n c v i e HE Hpre Hn Hc Hv Hi H. eapply malformed_email; eauto; [|now apply from_malformed].
  apply (nocase_ftext_eq (bs "From")); [now apply nocase_sym|]. split; [discriminate|]. apply Forall_forall. intros x Hx. vm_compute in Hx. unfold rfc_ftext. lia.
Qed.

(* ---- header blocks can be recognised by computation ---- *)
Fixpoint has_empty_line (l : bytes) : bool := starts_with l (CRLF ++ CRLF) || match l with [] => false | _ :: r => has_empty_line r end.
Definition is_header_block (h : bytes) : bool := negb (bytes_eqb h []) && negb (starts_with h CRLF) && negb (has_empty_line (h ++ CRLF)).
Lemma has_empty_line_app : forall a b, has_empty_line (a ++ CRLF ++ CRLF ++ b) = true.
Proof.
  induction a as [|c a IH]; intros b. { pose proof (starts_with_app (CRLF ++ CRLF) b) as S. rewrite <- app_assoc in S. cbn [app] in *. unfold has_empty_line. cbn [CRLF app] in *. now rewrite S. }
  cbn [app has_empty_line]. change (a ++ 13 :: 10 :: CRLF ++ b) with (a ++ CRLF ++ CRLF ++ b). rewrite IH. now destruct (starts_with _ _).
Qed.
Lemma header_block_b : forall h, is_header_block h = true -> header_block h.
Proof.
  intros h H. unfold is_header_block in H. apply andb_true_iff in H as [H H3]. apply andb_true_iff in H as [H1 H2]. split; [|split].
  - intros ->. discriminate.
  - intros x ->. now rewrite starts_with_app in H2.
  - intros a b X. unfold bytes, byte in *. rewrite X in H3. now rewrite has_empty_line_app in H3.
Qed.

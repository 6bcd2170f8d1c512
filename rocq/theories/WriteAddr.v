(* Addresses written as in Writers.v are read back. *)
From Coq Require Import Lia ZifyBool ZifyNat ZifyN.
From Verif Require Import Base Utf8 CharSets Combinators Whitespace QuotedString Common Time Address MimeFields Fields
  Rfc5322 Rfc2047 Post CodecSpec RfcFields SoundBase SoundTime SoundAddr TagNoCase SoundFields Steps Complete CompleteFields Forward ForwardText ForwardAddr ForwardList ForwardTime ForwardMime ForwardMimeFields ForwardTrace ForwardFields Writers WriteFacts.
Local Open Scope N_scope.

Lemma blanks_oFWS : forall s, chars rfc_WSP s -> rfc_oFWS s s.
Proof. intros [|b s] H; constructor. constructor. split; [discriminate|exact H]. Qed.
Lemma blanks_oCFWS : forall s, chars rfc_WSP s -> rfc_oCFWS s.
Proof. intros [|b s] H; [constructor|]. apply oCFWS_some, (CFWS_fws _ (b :: s)). constructor. split; [discriminate|exact H]. Qed.
Lemma blank1 : chars rfc_WSP (bs " ").
Proof. constructor; [now left|constructor]. Qed.
#[global] Hint Resolve blanks_oFWS blanks_oCFWS blank1 : core.
Lemma nil_blanks : chars rfc_WSP []. Proof. constructor. Qed.
#[global] Hint Resolve nil_blanks : core.
Lemma nil_oCFWS : rfc_oCFWS []. Proof. constructor. Qed.
#[global] Hint Resolve nil_oCFWS : core.
Lemma dot_tail_compat : forall b t, rfc_dot_tail false t -> rfc_dot_tail b t.
Proof. intros b t H. induction H as [|a t Ha [X|X] _ IH]; [constructor|discriminate|]. constructor; auto. Qed.
Lemma dot_text_compat : forall b t, rfc_dot_atom_text false t -> rfc_dot_atom_text b t.
Proof. intros b t [a t' Ha Ht]. constructor; auto. now apply dot_tail_compat. Qed.

(* ---- words ---- *)
Lemma quoted_blanks : forall s b v, chars rfc_WSP s -> quoting b v -> rfc_quoted_string (s ++ [34] ++ b ++ [34]) v.
Proof. intros s b v Hs H. change (s ++ [34] ++ b ++ [34]) with (s ++ [34] ++ b ++ [34] ++ []). constructor; auto. now apply quoting_qbody. Qed.
Lemma word_clear : forall mime EW s c w, chars rfc_WSP s -> written_word c w -> clear_word mime EW (s ++ c) w.
Proof.
  intros mime EW s c w Hs [w' Hw N|b w' Hb].
  - apply clear_atom; [|intros _; exact N]. rewrite <- (app_nil_r w') at 1. constructor; auto.
  - apply clear_quoted. now apply quoted_blanks.
Qed.
Lemma words_clear : forall mime EW c l, written_words c l -> forall s, chars rfc_WSP s -> clear_phrase mime EW (s ++ c) l.
Proof.
  intros mime EW c l H. induction H as [c w Hw|c w cs l Hw H IH]; intros s Hs.
  - constructor. now apply word_clear.
  - rewrite app_assoc. apply clear_phrase_more; [now apply word_clear| |now apply IH].
    intros a x y b _ E [_ Hy]. cbn in E. injection E as <- _. unfold rfc_atext, rfc_ALPHA, rfc_DIGIT in Hy. cbn [In] in Hy. lia.
Qed.
(* ---- addresses ---- *)
Lemma domain_written : forall compat c d, written_domain c d -> rfc_domain compat c d.
Proof.
  intros compat c d [d' H|d' H].
  - apply domain_dot_atom. rewrite <- (app_nil_l d') at 1. rewrite <- (app_nil_r d') at 1. constructor; auto. now apply dot_text_compat.
  - apply domain_lit. apply (domain_literal_intro [] d' d' []); auto. clear c d.
    induction H as [|x d' Hx H IH]; [apply (dbody_end [] []); constructor|]. apply (dbody_cons [] [] x d' d'); auto.
Qed.
Lemma address_clear : forall mime compat s c a, chars rfc_WSP s -> written_address c a -> clear_addr_spec mime compat (s ++ c) a.
Proof.
  intros mime compat s c a Hs [c1 l c2 d [w Hw N|b w Hb] H2]; rewrite app_assoc.
  - apply clear_dot_atom; [|intros _; exact N|now apply domain_written]. rewrite <- (app_nil_r w) at 1. constructor; auto. now apply dot_text_compat.
  - apply clear_quoted_local; [now apply quoted_blanks|now apply domain_written].
Qed.
Lemma angle_written : forall compat s c a, chars rfc_WSP s -> written_address c a -> rfc_angle_addr compat (s ++ bs "<" ++ c ++ bs ">") a.
Proof.
  intros compat s c a Hs H. change (s ++ bs "<" ++ c ++ bs ">") with (s ++ [60] ++ c ++ [62] ++ []). constructor; auto. apply (rfc_of_clear_addr_spec true). now apply (address_clear true compat []).
Qed.
Lemma mailbox_clear : forall mime compat EW s c m, chars rfc_WSP s -> written_mailbox c m -> clear_mailbox mime compat EW (s ++ c) m.
Proof.
  intros mime compat EW s c m Hs [c' a H|c' a H|c1 n c2 a H1 H2].
  - apply clear_plain. now apply address_clear.
  - apply clear_angle. now apply angle_written.
  - rewrite app_assoc. apply clear_named; [now apply words_clear|]. change (bs " <" ++ c2 ++ bs ">") with (bs " " ++ bs "<" ++ c2 ++ bs ">"). now apply angle_written.
Qed.
Lemma list_clear : forall A (P Q : bytes -> A -> Prop), (forall s c a, chars rfc_WSP s -> P c a -> Q (s ++ c) a) ->
  forall c l, written_list P c l -> forall s, chars rfc_WSP s -> comma_list Q (s ++ c) l.
Proof.
  intros A P Q HPQ c l H. induction H as [c a Ha|c a cs l Ha H IH]; intros s Hs.
  - constructor. auto.
  - rewrite app_assoc. change (bs ", " ++ cs) with (bs "," ++ bs " " ++ cs). apply comma_more; auto.
Qed.
Lemma recipient_clear : forall mime compat EW s c a, chars rfc_WSP s -> written_recipient c a -> clear_address mime compat EW (s ++ c) a.
Proof.
  intros mime compat EW s c a Hs [c' m H|c' n H|c1 n c2 l H1 H2].
  - apply clear_address_mailbox. now apply mailbox_clear.
  - rewrite app_assoc. apply (clear_address_group _ _ _ (s ++ c') n [] [] []); auto; [now apply words_clear|]. now apply clear_group_empty.
  - rewrite app_assoc. change (bs ": " ++ c2 ++ bs ";") with ([58] ++ (bs " " ++ c2) ++ [59] ++ []). apply clear_address_group; auto; [now apply words_clear|].
    apply clear_group_mailboxes. eapply list_clear; eauto. intros. now apply mailbox_clear.
Qed.

(* ---- what is written does not end with a blank ---- *)
Definition ends_ink (c : bytes) : Prop := exists a b, c = a ++ [b] /\ ~ rfc_WSP b.
Lemma ink_app : forall a c, ends_ink c -> ends_ink (a ++ c).
Proof. intros a c (x & b & -> & H). exists (a ++ x), b. now rewrite app_assoc. Qed.
Lemma ink_one : forall a b, ~ rfc_WSP b -> ends_ink (a ++ [b]).
Proof. intros a b H. now exists a, b. Qed.
Lemma ink_tidy : forall c, ends_ink c -> tidy c.
Proof.
  intros c (a & b & -> & Hb) x w E [Hn Hw]. exfalso. destruct w as [|y w] using rev_ind; [easy|]. rewrite app_assoc in E. apply app_inj_tail in E as [_ <-].
  apply Forall_app in Hw as [_ Hw]. inversion Hw; subst. auto.
Qed.
Lemma chars1_ink : forall (P : byte -> Prop) a, (forall c, P c -> ~ rfc_WSP c) -> chars1 P a -> ends_ink a.
Proof. intros P a HP [Hn H]. destruct a as [|b a] using rev_ind; [easy|]. apply Forall_app in H as [_ H]. inversion H; subst. apply ink_one. auto. Qed.
Lemma atext_ink : forall c, rfc_atext c -> ~ rfc_WSP c.
Proof. unfold rfc_atext, rfc_WSP, rfc_ALPHA, rfc_DIGIT. cbn [In]. intros. lia. Qed.
Lemma dot_text_ink : forall b t, rfc_dot_atom_text b t -> ends_ink t.
Proof.
  intros b t H. apply dot_atom_text_chars in H as [H _]. eapply chars1_ink; [|exact H]. intros c Hc. unfold visible, rfc_WSP in *. lia.
Qed.
Ltac ink := lazymatch goal with |- ends_ink (_ ++ [_]) => apply ink_one; unfold rfc_WSP; lia | |- ends_ink [_] => apply (ink_one []); unfold rfc_WSP; lia | _ => apply ink_app; ink end.
Lemma domain_ink : forall c d, written_domain c d -> ends_ink c.
Proof. intros c d [d' H|d' H]; [eapply dot_text_ink; eauto|]. ink. Qed.
Lemma address_ink : forall c a, written_address c a -> ends_ink c.
Proof. intros c a [c1 l c2 d H1 H2]. do 2 apply ink_app. eapply domain_ink; eauto. Qed.
Lemma mailbox_ink : forall c m, written_mailbox c m -> ends_ink c.
Proof. intros c m [c' a H|c' a H|c1 n c2 a H1 H2]; [eapply address_ink; eauto| |]; change (bs ">") with [62]; ink. Qed.
Lemma recipient_ink : forall c m, written_recipient c m -> ends_ink c.
Proof. intros c m [c' a H|c' a H|c1 n c2 a H1 H2]; [eapply mailbox_ink; eauto| |]; [change (bs ":;") with ([58] ++ [59])|change (bs ";") with [59]]; ink. Qed.
Lemma list_ink : forall A (P : bytes -> A -> Prop), (forall c a, P c a -> ends_ink c) -> forall c l, written_list P c l -> ends_ink c.
Proof. intros A P HP c l H. induction H; [eauto|]. now do 2 apply ink_app. Qed.
Lemma word_ink : forall c w, written_word c w -> ends_ink c.
Proof. intros c w [w' H N|b w' H]; [eapply chars1_ink; [apply atext_ink|exact H]|]. ink. Qed.
Lemma words_ink : forall c l, written_words c l -> ends_ink c.
Proof. intros c l H. induction H; [eapply word_ink; eauto|]. now do 2 apply ink_app. Qed.

(* ---- headers ---- *)
Lemma header_read : forall A E e1 e2 m (p : parser A) m2 (name : string) n c v i,
  nocase_pair (bs e1) (bs e2) = true -> bs e1 = bs name ++ [58] -> same_nocase n (bs name) ->
  p (bs " " ++ c ++ CRLF ++ i) = Ok (CRLF ++ i, v) -> header E e1 e2 m p m2 (n ++ bs ": " ++ c ++ CRLF ++ i) = Ok (i, v).
Proof.
  intros A E e1 e2 m p m2 name n c v i H1 H2 Hn HF. unfold header. change (n ++ bs ": " ++ c ++ CRLF ++ i) with (n ++ [58] ++ bs " " ++ c ++ CRLF ++ i). rewrite (name_tag E name) by auto. cbn [bind]. rewrite HF. cbn [bind]. rewrite tag_app. reflexivity.
Qed.
Lemma written_follows : forall c i, ends_ink c -> no_blank i -> follows (bs " " ++ c) (CRLF ++ i).
Proof. intros c i Hc Hi. apply tidy_follows; [|now apply no_blank_ends]. apply ink_tidy. now apply ink_app. Qed.
Lemma mailboxes_read : forall E c l i, written_list written_mailbox c l -> no_blank i -> mailbox_list E (bs " " ++ c ++ CRLF ++ i) = Ok (CRLF ++ i, l).
Proof.
  intros E c l i H Hi. rewrite app_assoc. apply mailbox_list_forward; [|apply written_follows; auto; eapply list_ink; eauto using mailbox_ink|split; reflexivity|reflexivity].
  eapply list_clear; eauto. intros. now apply mailbox_clear.
Qed.
Lemma mailbox_read : forall E c m i, written_mailbox c m -> no_blank i -> mailbox E (bs " " ++ c ++ CRLF ++ i) = Ok (CRLF ++ i, m).
Proof.
  intros E c l i H Hi. rewrite app_assoc. apply mailbox_forward; [|apply written_follows; auto; eapply mailbox_ink; eauto|split; reflexivity]. now apply mailbox_clear.
Qed.
Lemma recipients_read : forall E c l i, written_list written_recipient c l -> no_blank i -> address_list E (bs " " ++ c ++ CRLF ++ i) = Ok (CRLF ++ i, l).
Proof.
  intros E c l i H Hi. rewrite app_assoc. apply address_list_forward; [|apply written_follows; auto; eapply list_ink; eauto using recipient_ink|split; reflexivity|reflexivity].
  eapply list_clear; eauto. intros. now apply recipient_clear.
Qed.
Lemma from_read : forall E n c l i, same_nocase n (bs "From") -> written_list written_mailbox c l -> no_blank i -> field_from E (n ++ bs ": " ++ c ++ CRLF ++ i) = Ok (i, l).
Proof. intros. apply header_read with (name := "From"%string); auto. now apply mailboxes_read. Qed.
Lemma sender_read : forall E n c m i, same_nocase n (bs "Sender") -> written_mailbox c m -> no_blank i -> field_sender E (n ++ bs ": " ++ c ++ CRLF ++ i) = Ok (i, m).
Proof. intros. apply header_read with (name := "Sender"%string); auto. now apply mailbox_read. Qed.
Lemma to_read : forall E n c l i, same_nocase n (bs "To") -> written_list written_recipient c l -> no_blank i -> field_to E (n ++ bs ": " ++ c ++ CRLF ++ i) = Ok (i, l).
Proof. intros. apply header_read with (name := "To"%string); auto. now apply recipients_read. Qed.
Lemma cc_read : forall E n c l i, same_nocase n (bs "Cc") -> written_list written_recipient c l -> no_blank i -> field_cc E (n ++ bs ": " ++ c ++ CRLF ++ i) = Ok (i, l).
Proof. intros. apply header_read with (name := "Cc"%string); auto. now apply recipients_read. Qed.
Lemma reply_to_read : forall E n c l i, same_nocase n (bs "Reply-To") -> written_list written_recipient c l -> no_blank i -> field_reply_to E (n ++ bs ": " ++ c ++ CRLF ++ i) = Ok (i, l).
Proof. intros. apply header_read with (name := "Reply-To"%string); auto. now apply recipients_read. Qed.
Lemma bcc_read : forall E n c l i, same_nocase n (bs "Bcc") -> written_list written_recipient c l -> no_blank i -> field_bcc E (n ++ bs ": " ++ c ++ CRLF ++ i) = Ok (i, l).
Proof.
  intros E n c l i Hn H Hi. apply header_read with (name := "Bcc"%string); auto. rewrite app_assoc. assert (K : ends_ink c) by (eapply list_ink; eauto using recipient_ink). apply bcc_forward; [|now apply written_follows].
  split; [|now apply ink_tidy, ink_app]. apply clear_bcc_list. eapply list_clear; eauto. intros. now apply recipient_clear.
Qed.

(* ---- everything can be written ---- *)
Lemma escaped_word : forall v, chars printable v -> written_word ([34] ++ escaped v ++ [34]) v.
Proof. intros. apply quoted_word. now apply escaped_quoting. Qed.
Lemma some_words : forall n, n <> [] -> Forall (chars printable) n -> exists c, written_words c n.
Proof.
  intros n Hn H. induction H as [|w n Hw H IH]; [easy|]. destruct n as [|w' n].
  - eexists. apply words_one. now apply escaped_word.
  - destruct IH as [c Hc]; [discriminate|]. eexists. apply words_more; [now apply escaped_word|exact Hc].
Qed.
Lemma some_address : forall a, writable_address a -> exists c, written_address c a.
Proof. intros [l d] [H1 H2]. eexists. constructor; [apply quoted_local; now apply escaped_quoting|now apply literal_domain]. Qed.
Lemma some_mailbox : forall m, writable_mailbox m -> exists c, written_mailbox c m.
Proof.
  intros [[n|] a] [H1 H2]; destruct (some_address a H1) as [c Hc].
  - destruct H2 as [Hn H2]. destruct (some_words n Hn H2) as [c' Hc']. eexists. now apply named_mailbox; eauto.
  - eexists. apply plain_mailbox. exact Hc.
Qed.
Lemma some_list : forall A (P : bytes -> A -> Prop) (W : A -> Prop), (forall a, W a -> exists c, P c a) -> forall l, l <> [] -> Forall W l -> exists c, written_list P c l.
Proof.
  intros A P W HW l Hn H. induction H as [|a l Ha H IH]; [easy|]. destruct (HW a Ha) as [c Hc]. destruct l as [|b l].
  - exists c. now constructor.
  - destruct IH as [cs Hs]; [discriminate|]. eexists. apply list_more; eauto.
Qed.
Lemma some_mailboxes : forall l, l <> [] -> Forall writable_mailbox l -> exists c, written_list written_mailbox c l.
Proof. apply some_list, some_mailbox. Qed.
Lemma some_recipient : forall a, writable_recipient a -> exists c, written_recipient c a.
Proof.
  intros [m|[n l]] H.
  - destruct (some_mailbox m H) as [c Hc]. exists c. now constructor.
  - destruct H as (Hn & H1 & H2). destruct (some_words n Hn H1) as [c Hc]. destruct l as [|m l]; [eexists; now apply empty_group; eauto|].
    destruct (some_mailboxes (m :: l)) as [c' Hc']; [discriminate|exact H2|]. eexists. apply group_recipient; eauto.
Qed.
Lemma some_recipients : forall l, l <> [] -> Forall writable_recipient l -> exists c, written_list written_recipient c l.
Proof. apply some_list, some_recipient. Qed.

(* Encoded words written as in EncodedSpec.v are decoded, alone and among text. *)
From Coq Require Import Lia ZifyBool ZifyNat ZifyN.
From Verif Require Import Base Utf8 CharSets Combinators Whitespace EncodedWord Common Time Address MimeFields Fields
  Rfc5322 Post CodecSpec Base64Proofs Rfc2047 RfcFields SoundBase SoundTime TagNoCase SoundFields Steps Complete CompleteFields Forward ForwardText ForwardAddr ForwardList ForwardMime ForwardMimeFields ForwardFields
  Writers WriteFacts WriteAddr Utf8Facts EncodedSpec.
Local Open Scope N_scope.

Lemma q_text_chars : forall t v, q_written t v -> chars ew_text_char t.
Proof.
  intros t v H. assert (X : forall h x, hex_value h = Some x -> ew_text_char h).
  { intros h x Hx. unfold hex_value, position in Hx. cbn in Hx. unfold ew_text_char.
    repeat match type of Hx with context [h =? ?k] => destruct (N.eqb_spec h k); [subst; lia|] end. discriminate. }
  induction H; [constructor| | |]; (apply Forall_app; split; [|assumption]).
  - change (bs "_") with [95]. constructor; [unfold ew_text_char; lia|constructor].
  - constructor; [unfold ew_text_char; lia|constructor].
  - constructor; [unfold ew_text_char; lia|]. constructor; [eauto|]. constructor; [eauto|constructor].
Qed.
Lemma q_written_decoding : forall t v, q_written t v -> q_decoding t = v.
Proof.
  intros t v H. induction H as [|t v H IH|c t v Hc N1 N2 N3 H IH|h l x y t v Hx Hy H IH].
  - reflexivity.
  - cbn [bs app q_decoding]. cbn. now rewrite IH.
  - cbn [app q_decoding]. destruct (N.eqb_spec c 61); [lia|]. destruct (N.eqb_spec c 95); [lia|]. replace ((32 <=? c) && (c <=? 126)) with true by lia. now rewrite IH.
  - cbn [app q_decoding]. change (61 =? 61) with true. cbv iota. destruct ((h =? 13) && (l =? 10)) eqn:X.
    + exfalso. assert (h = 13) by lia. subst h. vm_compute in Hx. discriminate.
    + unfold CodecSpec.escape. rewrite Hx, Hy, IH. reflexivity.
Qed.
Lemma b64_text_chars : forall l, wf_bytes l -> chars ew_text_char (b64_encoding l).
Proof.
  assert (A : chars ew_text_char b64_alphabet). { apply Forall_forall. intros x Hx. vm_compute in Hx. unfold ew_text_char. lia. }
  assert (S : forall v, v < 64 -> ew_text_char (b64_symbol v)). { intros v Hv. unfold b64_symbol. unfold chars in A. rewrite Forall_forall in A. apply A. apply nth_In. vm_compute (length b64_alphabet). lia. }
  assert (P : ew_text_char 61) by (unfold ew_text_char; lia).
  intros l. pattern l. apply list_ind3; clear l.
  - intros _. constructor.
  - intros x H. inversion H as [|? ? Hx _]; subst. unfold wf_byte in *. repeat (constructor; [first [exact P|apply S; lia]|]). constructor.
  - intros x y H. inversion H as [|? ? Hx H']; subst. inversion H' as [|? ? Hy _]; subst. unfold wf_byte in *. repeat (constructor; [first [exact P|apply S; lia]|]). constructor.
  - intros x y z l IH H. inversion H as [|? ? Hx H']; subst. inversion H' as [|? ? Hy H'']; subst. inversion H'' as [|? ? Hz H3]; subst. unfold wf_byte in *. cbn [b64_encoding]. repeat (constructor; [first [exact P|apply S; lia]|]). now apply IH.
Qed.
Lemma b64_encoding_nonempty : forall l, l <> [] -> b64_encoding l <> [].
Proof. intros [|x [|y [|z l]]] H; [easy| | |]; discriminate. Qed.
Lemma charset_char_fold : forall c, 45 <= fold_case c -> fold_case c <= 122 -> (fold_case c = 45 \/ fold_case c = 56 \/ 97 <= fold_case c) -> ew_charset_char c.
Proof.
  intros c. unfold fold_case. destruct ((65 <=? c) && (c <=? 90)) eqn:X; intros H1 H2 H3; (split; [split; [lia|]|lia]); intros Y; vm_compute in Y; lia.
Qed.
Lemma utf8_name_chars : forall charset, same_nocase charset (bs "utf-8") -> chars1 ew_charset_char charset.
Proof.
  intros cs H. unfold same_nocase in H. change (map fold_case (bs "utf-8")) with [117; 116; 102; 45; 56] in H.
  do 6 (destruct cs as [|? cs]; try discriminate H). injection H as H1 H2 H3 H4 H5. split; [discriminate|].
  repeat (constructor; [apply charset_char_fold; lia|]). constructor.
Qed.
Lemma encoded_written : forall tc c v, written_encoded c v -> rfc_encoded_word tc c v.
Proof.
  intros tc c v [charset lang e t v' Hc Hl Ht Hn Hv]. apply encoded_word_intro with (raw := v'); auto.
  - now apply utf8_name_chars.
  - destruct Ht as [e v' He|e t v' He Hq]; [split; [now apply b64_encoding_nonempty|]; now apply b64_text_chars, utf8_wf|].
    split; [intros ->; inversion Hq; subst; auto|]. eapply q_text_chars; eauto.
  - destruct Ht as [e v' He|e t v' He Hq]; [apply ew_b; auto; now apply encoding_decoding, utf8_wf|]. rewrite <- (q_written_decoding t v') by auto. now apply ew_q.
  - unfold same_nocase in Hc. rewrite Hc. change (map fold_case (bs "utf-8")) with (bs "utf-8"). now constructor.
Qed.
Lemma encoded_read : forall E c v i, written_encoded c v -> encoded_word E (c ++ i) = Ok (i, v).
Proof. intros. apply encoded_word_forward. now apply encoded_written. Qed.

(* every text can be written *)
Lemma b_encoded : forall v, v <> [] -> utf8_valid v = true -> written_encoded (bs "=?utf-8?B?" ++ b64_encoding v ++ bs "?=") v.
Proof.
  intros v Hn Hv. apply (written_encoded_intro (bs "utf-8") [] (bs "B") (b64_encoding v)); auto; [reflexivity|constructor|]. now apply written_b.
Qed.

(* ---- among text ---- *)
Lemma encoded_visible : forall c v, written_encoded c v -> exists x, c = bs "=?" ++ x.
Proof. intros c v []. eauto. Qed.
Lemma oFWS_no_vchar : forall w u r, rfc_oFWS w u -> w <> [] -> no_vchar (w ++ r).
Proof.
  intros w u r [|w' u' [x [Hn Hx]|w1 w2 H1 H2]] H c t E; [easy| |].
  - destruct x as [|b x]; [easy|]. inversion Hx; subst. injection E as -> _. unfold rfc_VCHAR, rfc_WSP in *. lia.
  - destruct w1 as [|b w1]; [injection E as <- _; unfold rfc_VCHAR; lia|]. inversion H1; subst. injection E as -> _. unfold rfc_VCHAR, rfc_WSP in *. lia.
Qed.
Lemma well_spaced_clear : forall tc l after, well_spaced l -> clear_utext tc after (text_of l) (meaning after l).
Proof.
  intros tc l. induction l as [|[[w u] x] l IH]; intros after H; [constructor|]. destruct H as (Hw & Hx & Hl & HS).
  change (text_of ((w, u, x) :: l)) with ((w ++ item_text x) ++ text_of l). rewrite <- app_assoc. destruct x as [p|c v]; cbn [item_text meaning].
  - destruct Hx as [Hp Hn]. apply clear_utext_run; auto.
    + intros e d r He E. apply ew_start in He as [q ->]. apply (Hn [] (q ++ r)). now rewrite <- app_assoc in E.
    + destruct l as [|[[w' u'] x'] l]; [discriminate|]. change (text_of ((w', u', x') :: l)) with ((w' ++ item_text x') ++ text_of l). rewrite <- app_assoc. destruct Hl as (Hw' & _). eapply oFWS_no_vchar; eauto.
  - apply clear_utext_word; auto. now apply encoded_written.
Qed.
Lemma spaced_read : forall E l w i, f_mime E = true -> well_spaced l -> chars rfc_WSP w -> no_blank i -> mime_unstructured E (text_of l ++ w ++ CRLF ++ i) = Ok (CRLF ++ i, meaning false l).
Proof.
  intros E l w i HE Hl Hw Hi. rewrite app_assoc. apply mime_unstructured_forward; [|now apply no_blank_ends]. constructor; auto. now apply well_spaced_clear.
Qed.
Lemma spaced_subject : forall E n l w i, f_mime E = true -> same_nocase n (bs "Subject") -> well_spaced l -> chars rfc_WSP w -> no_blank i ->
  field_subject E (n ++ bs ":" ++ text_of l ++ w ++ CRLF ++ i) = Ok (i, meaning false l).
Proof.
  intros E n l w i HE Hn Hl Hw Hi. unfold field_subject, header. change (bs ":") with [58]. rewrite (name_tag E "Subject"%string) by auto. cbn [bind]. unfold text_value. rewrite HE. rewrite (spaced_read E l w i) by auto. cbn [bind]. rewrite tag_app. reflexivity.
Qed.
Lemma spaced_unknown : forall E n l w i, f_unrecognized_headers E = true -> chars1 rfc_ftext n -> well_spaced l -> chars rfc_WSP w -> no_blank i ->
  unknown E (n ++ bs ":" ++ text_of l ++ w ++ CRLF ++ i) = Ok (i, (n, meaning false l)).
Proof.
  intros E n l w i HE Hn Hl Hw Hi. rewrite (app_assoc (text_of l)). apply HeaderFacts.unknown_forward; auto; [|now apply no_blank_ends]. rewrite HE. constructor; auto. now apply well_spaced_clear.
Qed.
(* an encoded word in a display name *)
Lemma encoded_name_read : forall E n c v c' a i, f_mime E = true -> same_nocase n (bs "Sender") -> written_encoded c v -> written_address c' a -> no_blank i ->
  field_sender E (n ++ bs ": " ++ (c ++ bs " <" ++ c' ++ bs ">") ++ CRLF ++ i) = Ok (i, {| m_name := Some [v]; m_address := a |}).
Proof.
  intros E n c v c' a i HE Hn Hc Ha Hi. apply header_read with (name := "Sender"%string); auto. rewrite app_assoc. apply mailbox_forward; [| |split; reflexivity].
  - rewrite app_assoc. apply clear_named; [|change (bs " <" ++ c' ++ bs ">") with (bs " " ++ bs "<" ++ c' ++ bs ">"); now apply angle_written].
    constructor. apply (clear_encoded _ _ (bs " ") (bs " ")); auto. split; auto. now apply encoded_written.
  - apply written_follows; auto. change (bs ">") with [62]. ink.
Qed.

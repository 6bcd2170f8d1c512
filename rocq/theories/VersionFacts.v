(* Proofs of C38: MIME version numbers. *)
From Coq Require Import Lia ZifyBool ZifyNat ZifyN.
From Verif Require Import Base CharSets Combinators Time MimeFields Whitespace Rfc5322 RfcFields SoundTime SoundFields Post Complete Forward ForwardText ForwardTime ForwardParts ForwardMime ForwardMimeFields Writers WriteFacts WriteAddr ParamWrite.
Local Open Scope N_scope.

Lemma u8_loop_big : forall c n acc i, (length (c ++ i) < n)%nat -> chars rfc_DIGIT c -> acc < 256 -> 256 <= decimal_acc acc c -> exists e, u8_number_loop n acc (c ++ i) = Err e.
Proof.
  induction c as [|x c IH]; intros n acc i Hn Hc Ha Hd; (destruct n as [|n]; [lia|]); cbn [u8_number_loop].
  - cbn in Hd. lia.
  - inversion Hc; subst. cbn [app]. rewrite digit_forward by auto. cbn [attempt]. cbn [decimal_acc] in *.
    unfold u8_checked_mul, ok_or. destruct (N.ltb_spec (acc * 10) 256); [|cbn; eauto]. cbn [bind]. unfold u8_checked_add, ok_or.
    destruct (N.ltb_spec (acc * 10 + (x - 48)) 256); [|cbn; eauto]. cbn [bind]. replace (acc * 10 + (x - 48)) with (10 * acc + (x - 48)) in * by lia. apply IH; auto.
    cbn [app length] in Hn. lia.
Qed.
Lemma u8_number_big : forall c i, chars1 rfc_DIGIT c -> 256 <= number c -> exists e, u8_number (c ++ i) = Err e.
Proof.
  intros c i [Hc1 Hc2] Hn. rewrite <- decimal_number in *. destruct c as [|x c]; [congruence|]. inversion Hc2; subst. unfold u8_number. cbn [app].
  rewrite digit_forward by auto. cbn [bind]. unfold decimal in *. cbn [decimal_acc] in *. replace (10 * 0 + (x - 48)) with (x - 48) in * by lia.
  apply u8_loop_big; auto. unfold rfc_DIGIT in *. lia.
Qed.
Lemma version_read : forall E n c1 c2 i, same_nocase n (bs "MIME-Version") -> chars1 rfc_DIGIT c1 -> chars1 rfc_DIGIT c2 -> number c1 < 256 -> number c2 < 256 ->
  mime_version E (n ++ bs ": " ++ c1 ++ bs "." ++ c2 ++ CRLF ++ i) = Ok (i, (number c1, number c2)).
Proof.
  intros E n c1 c2 i Hn H1 H2 L1 L2.
  refine (eq_trans _ (mime_version_forward E (n ++ [58] ++ (bs " " ++ c1 ++ bs "." ++ c2 ++ []) ++ CRLF) (number c1, number c2) i _)).
  - f_equal. rewrite app_nil_r, <- !app_assoc. reflexivity.
  - constructor; auto. constructor; auto. apply no_inline.
Qed.
Lemma version_sound : forall E data i x y, mime_version E data = Ok (i, (x, y)) ->
  exists c, data = c ++ i /\ rfc_header "MIME-Version" rfc_mime_version c (x, y) /\ x < 256 /\ y < 256.
Proof.
  intros E data i x y H. pose proof (sound_mime_version E (fun _ => True) data) as S. rewrite H in S. destruct S as (c & -> & S). exists c. split; auto. split; auto.
  inversion S as [n c' v Hn Hv E1 E2]; subst. inversion Hv; subst. auto.
Qed.
Lemma digits_token : forall c, chars1 rfc_DIGIT c -> mime_token c.
Proof. intros c [H1 H1']. split; auto. eapply Forall_impl; [|exact H1']. intros y Hy. unfold rfc_DIGIT in Hy. split; [lia|cbn; lia]. Qed.
Lemma version_big : forall E n c1 c2 i, same_nocase n (bs "MIME-Version") -> chars1 rfc_DIGIT c1 -> chars1 rfc_DIGIT c2 -> 256 <= number c1 \/ 256 <= number c2 ->
  exists e, mime_version E (n ++ bs ": " ++ c1 ++ bs "." ++ c2 ++ i) = Err e.
Proof.
  intros E n c1 c2 i Hn H1 H2 L. unfold mime_version. change (bs ": " ++ c1 ++ bs "." ++ c2 ++ i) with ([58] ++ bs " " ++ c1 ++ bs "." ++ c2 ++ i). use_name "MIME-Version"%string Hn.
  destruct (ocfws_token (bs " ") c1 (bs "." ++ c2 ++ i) (blanks_oCFWS _ blank1) (digits_token c1 H1)) as [o ->]. cbn [bind].
  destruct (N.ltb_spec (number c1) 256) as [X|X].
  - rewrite (u8_number_forward c1) by (auto; reflexivity). cbn [bind]. rewrite tag_app. cbn [bind]. destruct (u8_number_big c2 i H2) as [e ->]; [lia|]. cbn. eauto.
  - destruct (u8_number_big c1 (bs "." ++ c2 ++ i) H1 X) as [e ->]. cbn. eauto.
Qed.

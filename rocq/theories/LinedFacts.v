(* Every header is made of printable characters, blanks and line folds. *)
From Coq Require Import Lia ZifyBool ZifyNat ZifyN.
From Verif Require Import Base Utf8 CharSets Combinators Time Address Percent MimeFields Fields TagNoCase Rfc5322 Rfc2047 CodecSpec RfcFields EmailSpec Forward ForwardText ForwardMime ForwardFields ForwardMessage.
From Verif Require Export LineSpec.
Local Open Scope N_scope.

Lemma lined_app : forall a b, lined a -> lined b -> lined (a ++ b).
Proof. intros a b H Hb. induction H; cbn [app]; auto; now constructor. Qed.
Lemma lined_chars : forall (P : byte -> Prop) l, (forall c, P c -> rfc_VCHAR c \/ rfc_WSP c) -> chars P l -> lined l.
Proof. intros P l HP H. induction H; constructor; auto. Qed.
Lemma lined_vchars : forall l, chars rfc_VCHAR l -> lined l.
Proof. intros l. apply lined_chars. auto. Qed.
Lemma lined_wsp : forall l, chars rfc_WSP l -> lined l.
Proof. intros l. apply lined_chars. auto. Qed.
Lemma lined_one : forall c, rfc_VCHAR c -> lined [c].
Proof. intros. constructor; [now left|constructor]. Qed.
Lemma lined_fws : forall c v, rfc_FWS c v -> lined c.
Proof.
  intros c v [w [_ H]|w1 w2 H1 [H2 H3]]; [now apply lined_wsp|]. apply lined_app; [now apply lined_wsp|]. destruct w2 as [|x l]; [congruence|]. apply Forall_inv in H3 as Hx. apply Forall_inv_tail in H3 as Hl.
  change (CRLF ++ x :: l) with (13 :: 10 :: x :: l). apply lined_fold; [exact Hx|]. now apply lined_wsp.
Qed.
Lemma lined_ofws : forall c v, rfc_oFWS c v -> lined c.
Proof. intros c v [|c' v' H]; [constructor|eapply lined_fws; eauto]. Qed.
Ltac vch := unfold rfc_VCHAR, rfc_WSP, rfc_ctext, rfc_qtext, rfc_dtext, rfc_DIGIT, rfc_ALPHA, rfc_ftext in *; lia.
Ltac lone := apply lined_one; vch.
Lemma lined_pair : forall t c, rfc_quoted_pair t c -> lined t.
Proof. intros t c [x H]. constructor; [left; vch|]. constructor; auto. constructor. Qed.
Scheme rfc_comment_ind3 := Induction for rfc_comment Sort Prop
with rfc_cbody_ind3 := Induction for rfc_cbody Sort Prop
with rfc_ccontent_ind3 := Induction for rfc_ccontent Sort Prop.
Lemma lined_comment : forall c, rfc_comment c -> lined c.
Proof.
  apply (rfc_comment_ind3 (fun c _ => lined c) (fun c _ => lined c) (fun c _ => lined c)).
  - intros b _ H. repeat apply lined_app; auto; lone.
  - intros w v H. eapply lined_ofws; eauto.
  - intros w v c b H _ H1 _ H2. repeat apply lined_app; auto. eapply lined_ofws; eauto.
  - intros c H. lone.
  - intros t c H. eapply lined_pair; eauto.
  - auto.
Qed.
Lemma lined_comments : forall c, rfc_comments c -> lined c.
Proof. intros c H. induction H; repeat apply lined_app; eauto using lined_ofws, lined_comment. Qed.
Lemma lined_cfws : forall c, rfc_CFWS c -> lined c.
Proof. intros c [t w v H1 H2|w v H]; [apply lined_app; eauto using lined_comments, lined_ofws|eauto using lined_fws]. Qed.
Lemma lined_ocfws : forall c, rfc_oCFWS c -> lined c.
Proof. intros c [|c' H]; [constructor|now apply lined_cfws]. Qed.
Lemma atext_vchar : forall c, rfc_atext c -> rfc_VCHAR c.
Proof. intros c [H|[H|H]]; try vch. cbn in H. vch. Qed.
Lemma lined_atext : forall l, chars rfc_atext l -> lined l.
Proof. intros l. apply lined_chars. intros c H. left. now apply atext_vchar. Qed.
Lemma lined_digits : forall l, chars rfc_DIGIT l -> lined l.
Proof. intros l. apply lined_chars. intros c H. left. vch. Qed.
Lemma lined_atom : forall c v, rfc_atom c v -> lined c.
Proof. intros c v [l a r H1 [_ H2] H3]. repeat apply lined_app; auto using lined_ocfws, lined_atext. Qed.
Lemma lined_dot_tail : forall b t, rfc_dot_tail b t -> lined t.
Proof. intros b t H. induction H; [constructor|]. repeat apply lined_app; auto using lined_atext. lone. Qed.
Lemma lined_dot_text : forall b t, rfc_dot_atom_text b t -> lined t.
Proof. intros b t [a t' [_ H] Ht]. apply lined_app; eauto using lined_atext, lined_dot_tail. Qed.
Lemma lined_dot_atom : forall b c v, rfc_dot_atom b c v -> lined c.
Proof. intros b c v [l a r H1 H2 H3]. repeat apply lined_app; eauto using lined_ocfws, lined_dot_text. Qed.
Lemma lined_qbody : forall c v, rfc_qbody c v -> lined c.
Proof.
  intros c v H. induction H as [w v H|w v t c b x H Ht Hb IH]; [eauto using lined_ofws|]. repeat apply lined_app; eauto using lined_ofws.
  destruct Ht as [c H1|t c H1]; [lone|eauto using lined_pair].
Qed.
Lemma lined_quoted : forall c v, rfc_quoted_string c v -> lined c.
Proof. intros c v [l b x r H1 H2 H3]. repeat apply lined_app; eauto using lined_ocfws, lined_qbody; lone. Qed.
Lemma lined_word : forall c v, rfc_word c v -> lined c.
Proof. intros c v [c' v' H|c' v' H]; eauto using lined_atom, lined_quoted. Qed.
Lemma lined_many : forall A (P : bytes -> A -> Prop) c l, (forall c a, P c a -> lined c) -> many_of P c l -> lined c.
Proof. intros A P c l HP H. induction H; [constructor|]. apply lined_app; eauto. Qed.
Lemma lined_comma : forall A (P : bytes -> A -> Prop) c l, (forall c a, P c a -> lined c) -> comma_list P c l -> lined c.
Proof. intros A P c l HP H. induction H; [eauto|]. repeat apply lined_app; eauto. change (bs ",") with [44]. lone. Qed.
Lemma lined_utext : forall c v, rfc_utext c v -> lined c.
Proof. intros c v H. induction H; [constructor|]. repeat apply lined_app; eauto using lined_ofws, lined_one. Qed.
Lemma lined_unstructured : forall c v, rfc_unstructured c v -> lined c.
Proof. intros c v [t v' w H1 H2]. apply lined_app; eauto using lined_utext, lined_wsp. Qed.
Lemma lined_mime_text : forall tc c v, mime_unstructured_text tc c v -> lined c.
Proof. intros tc c v H. apply mime_text_shape in H as [x H]. eauto using lined_unstructured. Qed.
Lemma lined_text_value : forall b tc c v, rfc_text_value b tc c v -> lined c.
Proof. intros [] tc c v H; unfold rfc_text_value in H; eauto using lined_mime_text, lined_unstructured. Qed.
Lemma lined_encoded : forall E c v, encoded E c v -> lined c.
Proof. intros E c v [_ H]. apply encoded_word_vchars in H as [_ H]. now apply lined_vchars. Qed.
Section With.
Variables (E : env) (b : bool).
Lemma lined_phrase : forall c l, rfc_phrase (encoded E) c l -> lined c.
Proof.
  intros c l [_ H]. revert H. apply lined_many. intros c' v [c1 v1 H|w x c1 v1 H1 H2]; [eauto using lined_word|]. apply lined_app; eauto using lined_ofws, lined_encoded.
Qed.
Lemma lined_dbody : forall c v, rfc_dbody c v -> lined c.
Proof. intros c v H. induction H as [w v H|w v c t x H Ht Hb IH]; [eauto using lined_ofws|]. repeat apply lined_app; eauto using lined_ofws. lone. Qed.
Lemma lined_domain : forall c v, rfc_domain b c v -> lined c.
Proof. intros c v [c' v' H|c' v' [l d x r H1 H2 H3]]; [eauto using lined_dot_atom|]. repeat apply lined_app; eauto using lined_ocfws, lined_dbody; lone. Qed.
Lemma lined_addr : forall c a, rfc_addr_spec b c a -> lined c.
Proof.
  intros c a [c1 l c2 d H1 H2]. repeat apply lined_app; eauto using lined_domain; [|lone]. destruct H1; eauto using lined_dot_atom, lined_quoted.
Qed.
Lemma lined_angle : forall c a, rfc_angle_addr b c a -> lined c.
Proof. intros c a [l c' a' r H1 H2 H3]. repeat apply lined_app; eauto using lined_ocfws, lined_addr; lone. Qed.
Lemma lined_mailbox : forall c m, rfc_mailbox b (encoded E) c m -> lined c.
Proof. intros c m [c1 n c2 a H1 H2|c' a H|c' a H]; [apply lined_app|..]; eauto using lined_phrase, lined_angle, lined_addr. Qed.
Lemma lined_mailbox_list : forall c l, rfc_mailbox_list b (encoded E) c l -> lined c.
Proof. intros c l. apply lined_comma. intros. eauto using lined_mailbox. Qed.
Lemma lined_address : forall c a, rfc_address b (encoded E) c a -> lined c.
Proof.
  intros c a [c' m H|c' g [c1 n c2 l r H1 H2 H3]]; [eauto using lined_mailbox|]. repeat apply lined_app; eauto using lined_phrase, lined_ocfws; try lone.
  destruct H2; eauto using lined_mailbox_list, lined_ocfws.
Qed.
Lemma lined_address_list : forall c l, rfc_address_list b (encoded E) c l -> lined c.
Proof. intros c l. apply lined_comma. intros. eauto using lined_address. Qed.
Lemma lined_bcc : forall c l, rfc_bcc b (encoded E) c l -> lined c.
Proof. intros c l [c' l' H|c' H]; eauto using lined_address_list, lined_cfws. Qed.
Lemma lined_id : forall c i, rfc_msg_id b c i -> lined c.
Proof.
  intros c i [l a c' d r H1 H2 H3 H4]. repeat apply lined_app; eauto using lined_ocfws, lined_dot_text; try lone.
  destruct H3 as [x H|x H]; [eauto using lined_dot_text|]. repeat apply lined_app; try lone. revert H. apply lined_chars. intros; left; vch.
Qed.
Lemma lined_ids : forall c l, rfc_msg_ids b c l -> lined c.
Proof. intros c l [_ H]. revert H. apply lined_many. intros. eauto using lined_id. Qed.
Lemma lined_path : forall c p, rfc_path b c p -> lined c.
Proof.
  intros c p [c' a H|x y z H1 H2 H3]; [eauto using lined_angle|]. change (bs "<") with [60]. change (bs ">") with [62]. repeat apply lined_app; eauto using lined_ocfws; lone.
Qed.
End With.
Lemma nocase_vchars : forall n m, same_nocase n m -> chars rfc_VCHAR m -> chars rfc_VCHAR n.
Proof.
  unfold same_nocase. induction n as [|x n IH]; intros [|y m] H Hm; cbn in H; try discriminate; [constructor|]. injection H as H1 H2. inversion Hm; subst.
  constructor; [|eapply IH; eauto]. unfold fold_case, rfc_VCHAR in *. destruct (_ && _) eqn:A, ((65 <=? y) && (y <=? 90)) eqn:B; lia.
Qed.
Lemma lined_table : forall A (table : list (bytes * A)) c a, Forall (fun p => chars rfc_VCHAR (fst p)) table -> rfc_name table c a -> lined c.
Proof.
  intros A table c a HT [n c' a' H1 H2]. rewrite Forall_forall in HT. specialize (HT _ H1). apply lined_vchars. eapply nocase_vchars; [|exact HT]. symmetry. exact H2.
Qed.
Ltac vlist := repeat constructor; unfold rfc_VCHAR; vm_compute; intros; discriminate.
Lemma lined_date_time : forall c d, rfc_date_time c d -> lined c.
Proof.
  intros c d [c0 n c1 d' c2 t c3 z c4 H0 H1 H2 H3 H4].
  assert (D : forall lo hi c v, rfc_digits lo hi c v -> lined c) by (intros lo hi c' v (_ & H & _); now apply lined_digits).
  repeat apply lined_app; eauto using lined_ocfws.
  - destruct H0 as [|w v c' d0 Hw Hn]; [constructor|]. change (bs ",") with [44]. repeat apply lined_app; eauto using lined_ofws; [|lone]. eapply lined_table; [|exact Hn]. vlist.
  - destruct H1. repeat apply lined_app; eauto using lined_ofws, lined_fws, lined_digits. eapply lined_table; [|eassumption]. vlist.
  - destruct H2; change (bs ":") with [58]; repeat apply lined_app; eauto; lone.
  - destruct H3. repeat apply lined_app; eauto using lined_fws. apply lined_vchars. destruct s; vlist.
Qed.
Lemma lined_date : forall c d, rfc_date_value c d -> lined c.
Proof. intros c d [H _]. eauto using lined_date_time. Qed.
Lemma lined_received : forall b c v, rfc_received b c v -> lined c.
Proof.
  intros b c v [c1 l c2 d H1 H2]. change (bs ";") with [59]. repeat apply lined_app; eauto using lined_date; [|lone]. revert H1. apply lined_many.
  intros c' a [c'' w H|c'' w H|c'' w H|c'' w H]; eauto using lined_word, lined_angle, lined_addr, lined_domain.
Qed.
Lemma token_vchar : forall c, mime_token_char c -> rfc_VCHAR c \/ rfc_WSP c.
Proof. intros c [H _]. left. exact H. Qed.
Lemma lined_token : forall l, mime_token l -> lined l.
Proof. intros l [_ H]. revert H. apply lined_chars. exact token_vchar. Qed.
Lemma lined_inline : forall c, inline_cfws c -> lined c.
Proof. intros c [w w' H1 H2|w c' w' H1 H2 H3]; repeat apply lined_app; auto using lined_wsp, lined_comment. Qed.
Lemma lined_param_value : forall c v, rfc_param_value c v -> lined c.
Proof. intros c v [c' H|c' v' H]; eauto using lined_token, lined_quoted. Qed.
Lemma lined_param : forall c p, rfc_param c p -> lined c.
Proof.
  intros c p [w w' n a i e c' v H1 H2 H3 H4]. change (bs ";") with [59]. change (bs "=") with [61]. repeat apply lined_app; eauto using lined_ocfws, lined_param_value; try lone.
  inversion H3 as [a' x i' e' Ha Hi|a' Ha]; subst.
  - repeat apply lined_app; [|destruct Hi as [|d [_ Hd] _]; [constructor|]; change (bs "*") with [42]; apply lined_app; [lone|now apply lined_digits]|destruct e; [change (bs "*") with [42]; lone|constructor]].
    destruct Ha as [_ Ha]. revert Ha. apply lined_chars. intros y [Hy _]. now apply token_vchar.
  - now apply lined_token.
Qed.
Lemma lined_keyword : forall A (table : list (bytes * A)) other c a, Forall (fun p => chars rfc_VCHAR (fst p)) table -> rfc_keyword table other c a -> lined c.
Proof.
  intros A table other c a HT [n c' a' H1 H2|c' H1 H2]; [|now apply lined_token]. rewrite Forall_forall in HT. specialize (HT _ H1). apply lined_vchars. eapply nocase_vchars; [exact H2|exact HT].
Qed.
Lemma lined_item : forall c p, rfc_disposition_item c p -> lined c.
Proof.
  assert (N : forall n (s : string), same_nocase n (bs s) -> chars rfc_VCHAR (bs s) -> lined n) by (intros n s H1 H2; apply lined_vchars; eapply nocase_vchars; eauto).
  intros c p [w w' n c' v H1 H2 H3 H4|w w' n c' v H1 H2 H3 H4|w w' n c' v H1 H2 H3 H4|w w' n c' v H1 H2 H3 H4|c' p' H]; [..|eauto using lined_param];
    apply N in H3; try (vlist); change (bs ";") with [59]; change (bs "=") with [61]; repeat apply lined_app; eauto using lined_ocfws, lined_param_value, lined_date; try lone; apply lined_vchars; vlist.
Qed.
Lemma lined_header : forall A (name : string) (V : bytes -> A -> Prop) c v, rfc_header name V c v -> chars rfc_ftext (bs name) -> bs name <> [] -> (forall c v, V c v -> lined c) ->
  exists n t, c = n ++ [58] ++ t ++ CRLF /\ same_nocase n (bs name) /\ lined t.
Proof. intros A name V c v [n t v' H1 H2] Hn Hne HV. exists n, t. split; [reflexivity|]. split; [exact H1|eauto]. Qed.

(* ---- every header is one or several such lines ---- *)
Inductive hline : bytes -> Prop :=
| hline_intro : forall n t, chars1 rfc_ftext n -> lined t -> hline (n ++ [58] ++ t ++ CRLF).
Inductive hlines : bytes -> Prop :=
| hlines_nil : hlines []
| hlines_cons : forall c d, hline c -> hlines d -> hlines (c ++ d).
Lemma hlines_app : forall a b, hlines a -> hlines b -> hlines (a ++ b).
Proof. intros a b H Hb. induction H; cbn [app]; auto. rewrite <- app_assoc. now constructor. Qed.
Lemma hlines_one : forall c, hline c -> hlines c.
Proof. intros c H. rewrite <- (app_nil_r c). constructor; [exact H|constructor]. Qed.
Lemma hlines_many : forall A (P : bytes -> A -> Prop) c l, (forall c a, P c a -> hlines c) -> many_of P c l -> hlines c.
Proof. intros A P c l HP H. induction H; [constructor|]. apply hlines_app; eauto. Qed.
Lemma header_hline : forall A (name : string) (V : bytes -> A -> Prop) c v, rfc_header name V c v -> bs name <> [] ->
  Forall (fun x => 65 <= x <= 90 \/ 97 <= x <= 122 \/ x = 45) (bs name) -> (forall c v, V c v -> lined c) -> hline c.
Proof.
  intros A name V c v [n t v' H1 H2] Hne Hl HV. constructor; [|eauto]. split; [|eapply nocase_ftext; eauto]. intros ->. apply nocase_length in H1. destruct (bs name); [congruence|discriminate].
Qed.
Ltac hl H := eapply header_hline; [exact H|discriminate|letters|intros].
Lemma lined_keywords : forall E c l, comma_list (rfc_phrase (encoded E)) c l -> lined c.
Proof. intros E c l. apply lined_comma. intros. eapply lined_phrase; eauto. Qed.
Lemma lined_version : forall c v, rfc_mime_version c v -> lined c.
Proof. intros c v [w c1 c2 x H1 [_ H2] [_ H3] _ _ H4]. change (bs ".") with [46]. repeat apply lined_app; auto using lined_ocfws, lined_digits, lined_inline. lone. Qed.
Lemma lined_content_type : forall tc c v, rfc_content_type tc c v -> lined c.
Proof.
  intros tc c v [w c1 t s ps raw l x H1 H2 H3 H4 _ H5]. change (bs "/") with [47]. repeat apply lined_app; auto using lined_ocfws, lined_token, lined_inline.
  - eapply lined_keyword; [|exact H2]. vlist.
  - lone.
  - eapply lined_many; [|exact H4]. intros. eapply lined_param; eauto.
Qed.
Lemma lined_encoding : forall c v, rfc_encoding c v -> lined c.
Proof. intros c v [w c1 e x H1 H2 H3]. repeat apply lined_app; auto using lined_ocfws, lined_inline. eapply lined_keyword; [|exact H2]. vlist. Qed.
Lemma lined_disposition : forall tc c v, rfc_disposition tc c v -> lined c.
Proof.
  intros tc c v [w c1 k is items l x H1 H2 H3 _ H4]. repeat apply lined_app; auto using lined_ocfws, lined_inline.
  - eapply lined_keyword; [|exact H2]. vlist.
  - eapply lined_many; [|exact H3]. intros. eapply lined_item; eauto.
Qed.
Ltac lv := first [eapply lined_date; eassumption|eapply lined_mailbox_list; eassumption|eapply lined_mailbox; eassumption|eapply lined_address_list; eassumption
  |eapply lined_bcc; eassumption|eapply lined_id; eassumption|eapply lined_ids; eassumption|eapply lined_text_value; eassumption|eapply lined_keywords; eassumption
  |eapply lined_version; eassumption|eapply lined_content_type; eassumption|eapply lined_encoding; eassumption|eapply lined_mime_text; eassumption|eapply lined_disposition; eassumption
  |eapply lined_path; eassumption|eapply lined_received; eassumption].
Lemma resent_hline : forall b E c t, rfc_resent b (encoded E) c t -> hline c.
Proof. intros b E c t []; lazymatch goal with H : rfc_header _ _ _ _ |- _ => hl H; lv end. Qed.
Lemma unknown_hline : forall E c u, rfc_unknown E c u -> hline c.
Proof. intros E c u [n t v H1 H2]. constructor; [exact H1|lv]. Qed.
Lemma field_hline : forall E c f, field_text E c f -> is_trace f = None -> hline c.
Proof.
  intros E c f H T. destruct H; try discriminate T; try (eapply unknown_hline; eassumption); lazymatch goal with H : rfc_header _ _ _ _ |- _ => hl H; lv end.
Qed.
Lemma field_hlines : forall E c f, field_text E c f -> hlines c.
Proof.
  intros E c f H. destruct (is_trace f) eqn:T; [|apply hlines_one; eapply field_hline; eauto]. destruct H; try discriminate T. clear T. repeat apply hlines_app.
  - destruct H0 as [|c' p' H0]; [constructor|]. apply hlines_one. hl H0; lv.
  - eapply hlines_many; [|exact H2]. intros c' a Ha. apply hlines_one. hl Ha; lv.
  - eapply hlines_many; [|exact H3]. intros c' a Ha. apply hlines_one. eapply resent_hline; eauto.
Qed.

(* ---- no empty line inside ---- *)
Definition nolf (s : bytes) : Prop := forall x y, s <> x ++ 10 :: 13 :: y.
Lemma nolf_cons : forall c s, c <> 10 -> nolf s -> nolf (c :: s).
Proof. intros c s Hc H [|a x] y X; injection X as -> X; [congruence|exact (H _ _ X)]. Qed.
Lemma nolf_lf : forall c s, c <> 13 -> nolf (c :: s) -> nolf (10 :: c :: s).
Proof. intros c s Hc H [|a x] y X; injection X as X1 X; [congruence|exact (H _ _ X)]. Qed.
Lemma nolf_prefix : forall a b, nolf (a ++ b) -> nolf a.
Proof. intros a b H x y ->. apply (H x (y ++ b)). now rewrite <- app_assoc. Qed.
Lemma lined_nolf : forall t s, lined t -> nolf s -> nolf (t ++ s).
Proof.
  intros t s H Hs. induction H as [|c t Hc H IH|w t Hw H IH]; cbn [app]; auto.
  - apply nolf_cons; auto. vch.
  - apply nolf_cons; [lia|]. apply nolf_lf; [vch|]. apply nolf_cons; [vch|exact IH].
Qed.
Lemma ftext_lined : forall n, chars rfc_ftext n -> lined n.
Proof. intros n. apply lined_chars. intros c H. left. unfold rfc_ftext, rfc_VCHAR in *. lia. Qed.
Lemma hline_nolf : forall c s, hline c -> nolf (10 :: s) -> nolf (10 :: c ++ s).
Proof.
  intros c s [n t [Hn Hf] Ht] H. rewrite <- !app_assoc. destruct n as [|x n]; [congruence|]. apply Forall_inv in Hf as Hx. apply Forall_inv_tail in Hf. cbn [app]. apply nolf_lf; [unfold rfc_ftext in Hx; lia|].
  apply nolf_cons; [unfold rfc_ftext in Hx; lia|]. apply lined_nolf; [now apply ftext_lined|]. apply nolf_cons; [lia|]. apply lined_nolf; auto. change (CRLF ++ s) with (13 :: 10 :: s). apply nolf_cons; [lia|exact H].
Qed.
Lemma hlines_nolf : forall c, hlines c -> nolf (CRLF ++ c).
Proof.
  assert (G : forall c, hlines c -> nolf (10 :: c)). { intros c H. induction H; [|now apply hline_nolf]. intros [|a [|b x]] y X; discriminate. }
  intros c H. change (CRLF ++ c) with (13 :: 10 :: c). apply nolf_cons; [lia|auto].
Qed.
(* a value without a blank line is unstructured text *)
Lemma unblank_tail : forall a t, unblank (a ++ t) -> unblank t.
Proof. intros a t H x w b X. apply (H (a ++ x) w b). rewrite <- !app_assoc. now f_equal. Qed.
Lemma utext_cases : forall t v, rfc_utext t v -> (t = [] /\ v = []) \/ exists w u c t' v', rfc_oFWS w u /\ rfc_VCHAR c /\ rfc_utext t' v' /\ t = w ++ [c] ++ t'.
Proof. intros t v [|w u c t' v' H1 H2 H3]; [now left|]. right. exists w, u, c, t', v'. auto. Qed.
Lemma lined_unblank : forall t, lined t -> unblank t -> exists v, rfc_unstructured t v.
Proof.
  intros t H HB. assert (G : exists u v w, rfc_utext u v /\ chars rfc_WSP w /\ t = u ++ w); [|destruct G as (u & v & w & H1 & H2 & ->); eexists; constructor; eauto].
  induction H as [|c t Hc H IH|w t Hw H IH].
  - exists [], [], []. split; [constructor|]. split; [constructor|reflexivity].
  - destruct IH as (u & v & w & H1 & H2 & ->); [now apply (unblank_tail [c])|]. destruct Hc as [Hc|Hc].
    + exists (c :: u), ([] ++ [c] ++ v), w. split; [|now split]. apply (utext_cons [] [] c u v); auto. constructor.
    + destruct (utext_cases _ _ H1) as [[-> ->]|(w' & x & d & t' & v' & Hw & Hd & Ht & ->)].
      * exists [], [], (c :: w). split; [constructor|]. split; [now constructor|reflexivity].
      * assert (F : exists z, rfc_oFWS (c :: w') z).
        { destruct Hw as [|w' x [w'' [_ Hw]|w1 w2 Hw1 Hw2]]; eexists; apply oFWS_some.
          - apply FWS_plain. split; [discriminate|constructor; [exact Hc|constructor]].
          - apply FWS_plain. split; [discriminate|constructor; auto].
          - apply (FWS_fold (c :: w1) w2); [now constructor|exact Hw2]. }
        destruct F as [z F]. exists ((c :: w') ++ [d] ++ t'), (z ++ [d] ++ v'), w. split; [now constructor|]. now split.
  - destruct IH as (u & v & w' & H1 & H2 & ->); [now apply (unblank_tail [13; 10; w])|].
    destruct (utext_cases _ _ H1) as [[-> ->]|(y & x & d & t' & v' & Hy & Hd & Ht & ->)].
    + exfalso. apply (HB [] (w :: w') []); [cbn; now rewrite ?app_nil_r|]. split; [discriminate|now constructor].
    + assert (F : exists z, rfc_oFWS (13 :: 10 :: w :: y) z).
      { destruct Hy as [|y x [y' [_ Hy]|w1 w2 Hw1 Hw2]].
        - eexists; apply oFWS_some. apply (FWS_fold [] [w]); [constructor|split; [discriminate|constructor; [exact Hw|constructor]]].
        - eexists; apply oFWS_some. apply (FWS_fold [] (w :: y')); [constructor|split; [discriminate|now constructor]].
        - exfalso. apply (HB [] (w :: w1) (w2 ++ [d] ++ t' ++ w' ++ CRLF)); [cbn; now rewrite <- ?app_assoc|]. split; [discriminate|now constructor]. }
      destruct F as [z F]. exists ((13 :: 10 :: w :: y) ++ [d] ++ t'), (z ++ [d] ++ v'), w'. split; [now constructor|]. now split.
Qed.

(* C66: which headers of RFC 2045 and RFC 2183 are recognised, and which are not. *)
From Coq Require Import Lia ZifyBool ZifyNat ZifyN Permutation.
From Verif Require Import Base CharSets Combinators Percent MimeFields Fields Rfc5322 RfcFields Post SoundBase SoundFields Complete CompleteFields Forward ForwardMime ForwardParams
  ForwardMimeFields PercentProofs Envs EnvOk LineSpec ExactSpec MimeExactSpec MimeExactHeads Writers WriteFacts MimeRfcSpec MimeRfcFacts.
Local Open Scope N_scope.

(* ---- compact contents are contents of the RFC ---- *)
Lemma compact_lexes : forall t ps x, compact_parameters t ps -> filler x ->
  exists l, lexes (t ++ x) l /\ token_ends (t ++ x) /\ rfc_parameters l ps.
Proof.
  intros t ps x H Hx. induction H as [|w w' a v t ps Hw Hw' Ha Hv H IH|w w' a b v t ps Hw Hw' Ha Hb H IH].
  - exists []. split; [now constructor|]. split; [rewrite <- (app_nil_r x); now apply (ends_filler x [])|constructor].
  - destruct IH as (l & L & T & P). destruct (param_lexes w w' a v v (t ++ x) l Hw Hw' Ha (param_value_token v Hv) T L) as (y & Hy & L' & T').
    rewrite <- !app_assoc in L', T'. exists (LSpecial 59 :: LToken a :: LSpecial 61 :: y :: l). rewrite <- !app_assoc. split; [exact L'|]. split; [exact T'|now constructor].
  - destruct IH as (l & L & T & P).
    assert (Q : rfc_param_value ([34] ++ b ++ [34]) v) by (apply param_value_quoted; rewrite <- (app_nil_r ([34] ++ b ++ [34])), <- !app_assoc; apply (quoted_string_intro [] b v []); auto; constructor).
    destruct (param_lexes w w' a _ v (t ++ x) l Hw Hw' Ha Q T L) as (y & Hy & L' & T').
    rewrite <- !app_assoc in L', T'. exists (LSpecial 59 :: LToken a :: LSpecial 61 :: y :: l). rewrite <- !app_assoc. split; [exact L'|]. split; [exact T'|now constructor].
Qed.
Lemma compact_rfc : forall t c s ps, compact_type t c s ps -> rfc2045_type t c s ps.
Proof.
  intros t c s ps [w c' s' t' ps' x Hw Hc _ Hs Hps Hx]. destruct (compact_lexes t' ps' x Hps (filler_inline x Hx)) as (l & L & T & P). exists l. split; [|exact P].
  apply lexes_token; [now apply filler_ocfws|exact Hc|apply ends_special; cbn; auto|]. apply (lexes_special [] 47); [constructor|cbn; auto|]. apply (lexes_token [] s'); auto. constructor.
Qed.

(* ---- they are recognised ---- *)
Lemma same_nocase_dec : forall a b, {same_nocase a b} + {~ same_nocase a b}.
Proof. intros a b. unfold same_nocase. apply list_eq_dec, N.eq_dec. Qed.
Lemma known_or_not : forall A (table : list (bytes * A)) c, (exists n a, In (n, a) table /\ same_nocase c n) \/ (forall n a, In (n, a) table -> ~ same_nocase c n).
Proof.
  intros A table c. induction table as [|[n a] table IH]; [right; intros n a []|]. destruct (same_nocase_dec c n) as [Hn|Hn]; [left; exists n, a; split; [now left|exact Hn]|].
  destruct IH as [(m & b & Hin & Hm)|IH]; [left; exists m, b; split; [now right|exact Hm]|]. right. intros m b [X|Hin]; [injection X as <- <-; exact Hn|eauto].
Qed.
Lemma keyword_clear : forall A (table : list (bytes * A)) other c, mime_token c -> no_longer table c -> exists a, rfc_keyword table other c a /\ clear_keyword table other c a.
Proof.
  intros A table other c Hc HL. destruct (known_or_not A table c) as [(n & a & Hin & Hn)|HN].
  - exists a. split; [exact (keyword_known _ _ n c a Hin Hn)|exact (clear_known _ _ n c a Hin Hn)].
  - exists (other (map fold_case c)). split; [now apply keyword_other|]. apply clear_other; [exact Hc|]. intros n a x y Hin X Hx. pose proof (HL n a x y Hin X Hx) as ->. rewrite app_nil_r in X. subst x. exact (HN n a Hin Hx).
Qed.
Definition raw_of (p : bytes * bytes) : param := (map fold_case (fst p), None, false, snd p).
Lemma plain_name_back : forall a, mime_token a -> ~ In 42 a -> clear_param_name a (map fold_case a, None, false).
Proof.
  intros a [A1 A2] H. apply clear_indexed. pose proof (indexed_intro a [] None false) as X. cbn [app] in X. rewrite app_nil_r in X. apply X; [|constructor]. split; [exact A1|].
  apply Forall_forall. intros x Hx. split; [exact (proj1 (Forall_forall _ _) A2 x Hx)|]. now intros ->.
Qed.
Lemma compact_clear : forall t ps, compact_parameters t ps -> no_extension ps -> many_of clear_param t (map raw_of ps) /\ Forall2 the_param ps (map raw_of ps).
Proof.
  intros t ps H. induction H as [|w w' a v t ps Hw Hw' Ha Hv H IH|w w' a b v t ps Hw Hw' Ha Hb H IH]; intros Hn; [split; constructor| |];
    apply Forall_cons_iff in Hn as [Hx Hn]; cbn [fst] in Hx; destruct (IH Hn) as [M F]; (split; [|constructor; [split; [now apply param_name_plain|reflexivity]|exact F]]); cbn [map].
  - replace (w ++ bs ";" ++ w' ++ a ++ bs "=" ++ v ++ t) with ((w ++ bs ";" ++ w' ++ a ++ bs "=" ++ v) ++ t) by (rewrite <- !app_assoc; reflexivity).
    apply many_cons; [|exact M]. apply clear_param_intro; auto; [now apply plain_name_back|now constructor].
  - replace (w ++ bs ";" ++ w' ++ a ++ bs "=" ++ [34] ++ b ++ [34] ++ t) with ((w ++ bs ";" ++ w' ++ a ++ bs "=" ++ [34] ++ b ++ [34]) ++ t) by (rewrite <- !app_assoc; reflexivity).
    apply many_cons; [|exact M]. apply clear_param_intro; auto; [now apply plain_name_back|now constructor].
Qed.
Lemma map_get_app : forall (l l' : list (bytes * bytes)) n, map_get (l ++ l') n = match map_get l n with Some v => Some v | None => map_get l' n end.
Proof. intros l l' n. induction l as [|[m v] l IH]; [reflexivity|]. cbn. destruct (bytes_eqb n m); [reflexivity|exact IH]. Qed.
Lemma attribute_map : forall ps, exists l, forall n, map_get l n = attribute ps n.
Proof.
  intros ps. exists (rev (map (fun p => (map fold_case (fst p), snd p)) ps)). intros n. induction ps as [|[a v] ps IH]; [reflexivity|]. cbn [map rev fst snd]. rewrite map_get_app, IH.
  unfold attribute. cbn [last_some]. match goal with |- context [last_some ?f ps] => destruct (last_some f ps) end; [reflexivity|]. reflexivity.
Qed.
Lemma type_understood : forall E n t c s ps i, env_ok E -> same_nocase n (bs "Content-Type") -> compact_type t c s ps -> no_extension ps -> no_blank i ->
  exists k l, rfc_keyword mime_types CUnknown c k /\ content_type E (n ++ bs ":" ++ t ++ CRLF ++ i) = Ok (i, (k, map fold_case s, l)) /\ forall a, map_get l a = attribute ps a.
Proof.
  intros E n t c s ps i HE Hn [w c' s' t' ps' x Hw Hc HL Hs Hps Hx] HX Hi. destruct (keyword_clear _ mime_types CUnknown c' Hc HL) as (k & K1 & K2).
  destruct (compact_clear t' ps' Hps HX) as [M F]. destruct (attribute_map ps') as [l Hl]. destruct (plain_attributes ps' (map raw_of ps') F HX) as [S P].
  assert (V : params_value (textcode E) (map raw_of ps') l) by (intros a; rewrite Hl, <- P; now apply value_plain).
  assert (H : rfc_header "Content-Type" (clear_content_type E) (n ++ [58] ++ (w ++ c' ++ bs "/" ++ s' ++ t' ++ x) ++ CRLF) (k, map fold_case s', l)).
  { constructor; [exact Hn|]. econstructor; eauto. intros _ m. apply S. }
  assert (Hi' : ends is_wsp i) by (now apply no_blank_ends).
  destruct (content_type_forward E _ k (map fold_case s') l i (ok_hash E HE) Hi' H) as (l' & R & X). rewrite <- !app_assoc in R. exists k, l'. split; [exact K1|]. split; [|intros a; now rewrite <- X].
  rewrite <- !app_assoc. exact R.
Qed.
Lemma mechanism_understood : forall E n t c (i : bytes), same_nocase n (bs "Content-Transfer-Encoding") -> compact_mechanism t c ->
  exists e, rfc_keyword mime_encodings UnknownEnc c e /\ content_transfer_encoding E (n ++ bs ":" ++ t ++ CRLF ++ i) = Ok (i, e).
Proof.
  intros E n t c i Hn [w c' x Hw Hc HL Hx]. destruct (keyword_clear _ mime_encodings UnknownEnc c' Hc HL) as (e & K1 & K2). exists e. split; [exact K1|].
  assert (H : rfc_header "Content-Transfer-Encoding" clear_encoding (n ++ [58] ++ (w ++ c' ++ x) ++ CRLF) e) by (constructor; [exact Hn|now constructor]).
  pose proof (encoding_forward E _ e i H) as X. rewrite <- !app_assoc in X. rewrite <- !app_assoc. exact X.
Qed.

(* ---- what no lexical tokens are ---- *)
Inductive place : Type := Outside | Quoted | Comment (n : nat).
Fixpoint scan (p : place) (t : bytes) : bool :=
  match t with
  | [] => match p with Outside => true | _ => false end
  | x :: t' =>
    match p with
    | Outside => if x =? 34 then scan Quoted t' else if x =? 40 then scan (Comment 0) t' else if x =? 41 then false else scan Outside t'
    | Quoted => if x =? 92 then match t' with _ :: t'' => scan Quoted t'' | [] => false end else if x =? 34 then scan Outside t' else scan Quoted t'
    | Comment n => if x =? 92 then match t' with _ :: t'' => scan (Comment n) t'' | [] => false end else if x =? 40 then scan (Comment (S n)) t'
        else if x =? 41 then match n with O => scan Outside t' | S m => scan (Comment m) t' end else scan (Comment n) t'
    end
  end.
Definition ordinary (x : byte) : Prop := x <> 34 /\ x <> 40 /\ x <> 41 /\ x <> 92.
Lemma scan_ordinary : forall w p t, Forall ordinary w -> scan p (w ++ t) = scan p t.
Proof.
  intros w p t H. induction H as [|x w (A & B & C & D) H IH]; [reflexivity|]. cbn [app scan].
  apply N.eqb_neq in A, B, C, D. destruct p; rewrite ?A, ?B, ?C, ?D; exact IH.
Qed.
Lemma wsp_ordinary : forall w, chars rfc_WSP w -> Forall ordinary w.
Proof. intros w. apply Forall_impl. intros x H. unfold rfc_WSP in H. unfold ordinary. lia. Qed.
Lemma ofws_ordinary : forall w v, rfc_oFWS w v -> Forall ordinary w.
Proof.
  intros w v [|c u [z [_ H]|w1 w2 H1 [_ H2]]]; [constructor|now apply wsp_ordinary|]. apply Forall_app. split; [now apply wsp_ordinary|].
  repeat (constructor; [unfold ordinary; lia|]). now apply wsp_ordinary.
Qed.
Scheme comment_min := Minimality for rfc_comment Sort Prop with cbody_min := Minimality for rfc_cbody Sort Prop with ccontent_min := Minimality for rfc_ccontent Sort Prop.
Combined Scheme comments_min from comment_min, cbody_min, ccontent_min.
Definition deeper (p : place) : place := match p with Comment n => Comment (S n) | _ => Comment 0 end.
Lemma scan_comment_all :
  (forall c, rfc_comment c -> forall p t, p <> Quoted -> scan p (c ++ t) = scan p t) /\
  (forall b, rfc_cbody b -> forall n t, scan (Comment n) (b ++ t) = scan (Comment n) t) /\
  (forall c, rfc_ccontent c -> forall n t, scan (Comment n) (c ++ t) = scan (Comment n) t).
Proof.
  apply comments_min.
  - intros b _ IH p t Hp. rewrite <- !app_assoc. destruct p as [| |n]; [|easy|]; cbn [app scan N.eqb Pos.eqb]; rewrite IH; reflexivity.
  - intros w v H n t. apply scan_ordinary. eapply ofws_ordinary; eauto.
  - intros w v c b H _ Hc _ Hb n t. rewrite <- !app_assoc, scan_ordinary by (eapply ofws_ordinary; eauto). now rewrite Hc, Hb.
  - intros c H n t. unfold rfc_ctext in H. cbn [app scan]. rewrite !(proj2 (N.eqb_neq _ _)) by lia. reflexivity.
  - intros u c [c' _] n t. reflexivity.
  - intros u _ IH n t. now apply IH.
Qed.
Lemma scan_qbody : forall b v, rfc_qbody b v -> forall t, scan Quoted (b ++ t) = scan Quoted t.
Proof.
  intros b v H. induction H as [w v H|w v u c b x H Hu H' IH]; intros t; [apply scan_ordinary; eapply ofws_ordinary; eauto|].
  rewrite <- !app_assoc, scan_ordinary by (eapply ofws_ordinary; eauto). destruct Hu as [c H0|u c [c' _]].
  - unfold rfc_qtext in H0. cbn [app scan]. rewrite !(proj2 (N.eqb_neq _ _)) by lia. apply IH.
  - cbn [app scan N.eqb Pos.eqb]. apply IH.
Qed.
Lemma scan_filler : forall w t, filler w -> scan Outside (w ++ t) = scan Outside t.
Proof.
  intros w t H. induction H as [|x u Hx H IH|x u Hx H IH|c u Hc H IH]; [reflexivity| | |].
  - rewrite <- IH. apply (scan_ordinary [x] Outside (u ++ t)), wsp_ordinary. constructor; [exact Hx|constructor].
  - rewrite <- IH, <- app_assoc. apply (scan_ordinary (CRLF ++ [x]) Outside (u ++ t)). repeat (constructor; [unfold rfc_WSP in Hx; unfold ordinary; lia|]). constructor.
  - rewrite <- app_assoc, (proj1 scan_comment_all c Hc Outside) by discriminate. exact IH.
Qed.
Lemma token_ordinary : forall c, mime_token c -> Forall ordinary c.
Proof. intros c [_ H]. revert H. apply Forall_impl. intros x [_ H]. unfold ordinary. split; [|split; [|split]]; intros ->; apply H; cbn; auto 20. Qed.
Lemma lexes_scan : forall t l, lexes t l -> scan Outside t = true.
Proof.
  intros t l H. induction H as [w H|w c t l H Hc Ht L IH|w b v t l H Hb L IH|w x t l H Hx L IH].
  - rewrite <- (app_nil_r w). now rewrite scan_filler.
  - rewrite scan_filler by exact H. rewrite scan_ordinary; [exact IH|now apply token_ordinary].
  - rewrite scan_filler by exact H. cbn [app scan N.eqb Pos.eqb]. rewrite (scan_qbody b v Hb). exact IH.
  - rewrite scan_filler by exact H. rewrite <- IH. apply (scan_ordinary [x] Outside t). constructor; [|constructor]. cbn in Hx. unfold ordinary. lia.
Qed.
(* a date with a comment in quotes, in which there is a quote *)
Definition quoted_date : bytes := bs " inline; creation-date=""5 May 2003 18:58:34 +0000 (a""b)""".
Lemma date_does_not_conform : forall E, In E [env_default; env_mime; env_all_debug] ->
  exists t d, content_disposition E (bs "Content-Disposition:" ++ t ++ CRLF) = Ok ([], d) /\ forall c ps, ~ rfc2183_disposition t c ps.
Proof.
  intros E HE. exists quoted_date. eexists. split; [destruct HE as [<-|[<-|[<-|[]]]]; vm_compute; reflexivity|].
  intros c ps (l & L & _). apply lexes_scan in L. vm_compute in L. discriminate.
Qed.

(* ---- what is not recognised ---- *)
Local Ltac chars_ok := split; [discriminate|]; repeat (constructor; [unfold mime_token_char, rfc_DIGIT; vm_compute; intuition discriminate|]); constructor.
Local Ltac blank := apply filler_blank; [left; reflexivity|apply filler_none].
Lemma letter_comment : forall x, rfc_ctext x -> rfc_comment [40; x; 41].
Proof.
  intros x H. apply (comment_intro [x]). apply (cbody_cons [] [] [x] []); [constructor|now constructor|]. apply (cbody_end [] []). constructor.
Qed.
Lemma longer_type_lost : exists t c s ps, rfc2045_type t c s ps /\ forall E, In E [env_default; env_mime; env_all_debug] -> exists e, content_type E (bs "Content-Type:" ++ t ++ CRLF) = Err e.
Proof.
  exists (bs " textile/x"), (bs "textile"), (bs "x"), []. split; [|intros E HE; eexists; destruct HE as [<-|[<-|[<-|[]]]]; vm_compute; reflexivity]. exists []. split; [|constructor].
  apply (lexes_token (bs " ") (bs "textile") (bs "/x")); [blank|chars_ok|apply ends_special; cbn; auto|].
  apply (lexes_special [] 47 (bs "x")); [constructor|cbn; auto|]. apply (lexes_token [] (bs "x") []); [constructor|chars_ok|exact I|constructor; constructor].
Qed.
Lemma slash_lexes : forall k, mime_token k -> lexes (bs " " ++ k ++ bs " / png") [LToken k; LSpecial 47; LToken (bs "png")].
Proof.
  intros k Hk. apply lexes_token; [blank|exact Hk|intros [X _]; vm_compute in X; destruct X as [X _]; now apply X|].
  apply (lexes_special (bs " ") 47 (bs " png")); [blank|cbn; auto|]. apply (lexes_token (bs " ") (bs "png") []); [blank|chars_ok|exact I|constructor; constructor].
Qed.
Lemma slash_lost : exists t c s ps, rfc2045_type t c s ps /\ forall E, In E [env_default; env_mime; env_all_debug] -> exists e, content_type E (bs "Content-Type:" ++ t ++ CRLF) = Err e.
Proof.
  exists (bs " image / png"), (bs "image"), (bs "png"), []. split; [|intros E HE; eexists; destruct HE as [<-|[<-|[<-|[]]]]; vm_compute; reflexivity]. exists []. split; [|constructor].
  apply (slash_lexes (bs "image")). chars_ok.
Qed.
Definition spaced_boundary : bytes := bs " multipart/mixed; boundary = x".
Lemma spaced_boundary_rfc : rfc2045_type spaced_boundary (bs "multipart") (bs "mixed") [(bs "boundary", bs "x")].
Proof.
  eexists. split.
  - apply (lexes_token (bs " ") (bs "multipart") (bs "/mixed; boundary = x")); [blank|chars_ok|apply ends_special; cbn; auto|].
    apply (lexes_special [] 47 (bs "mixed; boundary = x")); [constructor|cbn; auto|]. apply (lexes_token [] (bs "mixed") (bs "; boundary = x")); [constructor|chars_ok|apply ends_special; cbn; auto|].
    apply (lexes_special [] 59 (bs " boundary = x")); [constructor|cbn; auto|]. apply (lexes_token (bs " ") (bs "boundary") (bs " = x")); [blank|chars_ok|intros [X _]; vm_compute in X; destruct X as [X _]; now apply X|].
    apply (lexes_special (bs " ") 61 (bs " x")); [blank|cbn; auto|]. apply (lexes_token (bs " ") (bs "x") []); [blank|chars_ok|exact I|constructor; constructor].
  - constructor; [|constructor]. constructor.
Qed.
Lemma equals_lost : forall E, In E [env_default; env_mime; env_all_debug] -> exists e, content_type E (bs "Content-Type:" ++ spaced_boundary ++ CRLF) = Err e.
Proof.
  intros E HE. eexists. destruct HE as [<-|[<-|[<-|[]]]]; vm_compute; reflexivity.
Qed.
Definition two_comments : bytes := bs " text/plain (a) (b)".
Lemma two_comments_rfc : rfc2045_type two_comments (bs "text") (bs "plain") [].
Proof.
  exists []. split; [|constructor].
  apply (lexes_token (bs " ") (bs "text") (bs "/plain (a) (b)")); [blank|chars_ok|apply ends_special; cbn; auto|].
  apply (lexes_special [] 47 (bs "plain (a) (b)")); [constructor|cbn; auto|].
  apply (lexes_token [] (bs "plain") (bs " (a) (b)")); [constructor|chars_ok|intros [X _]; vm_compute in X; destruct X as [X _]; now apply X|].
  constructor. apply (filler_blank 32 (bs "(a) (b)")); [now left|]. apply (filler_comment (bs "(a)") (bs " (b)")); [apply letter_comment; right; right; vm_compute; split; discriminate|].
  apply (filler_blank 32 (bs "(b)")); [now left|]. apply (filler_comment (bs "(b)") []); [apply letter_comment; right; right; vm_compute; split; discriminate|constructor].
Qed.
Lemma comments_lost : forall E, In E [env_default; env_mime; env_all_debug] -> exists e, content_type E (bs "Content-Type:" ++ two_comments ++ CRLF) = Err e.
Proof.
  intros E HE. eexists. destruct HE as [<-|[<-|[<-|[]]]]; vm_compute; reflexivity.
Qed.
(* the third example of RFC 2045 4 *)
Definition meta_send : bytes := bs " 1.(produced by MetaSend Vx.x)0".
Lemma meta_send_rfc : rfc2045_version meta_send (1, 0).
Proof.
  apply (rfc2045_version_intro (bs " ") (bs "1") [] (bs "(produced by MetaSend Vx.x)") (bs "0") []); [blank|chars_ok|constructor| |chars_ok|constructor].
  rewrite <- (app_nil_r (bs "(produced by MetaSend Vx.x)")). apply filler_comment; [|constructor].
  assert (W : forall x b, rfc_ctext x -> rfc_cbody b -> rfc_cbody (x :: b)) by (intros x b Hx Hb; apply (cbody_cons [] [] [x] b); [constructor|now constructor|exact Hb]).
  assert (S : forall x b, rfc_ctext x -> rfc_cbody b -> rfc_cbody (32 :: x :: b)).
  { intros x b Hx Hb. apply (cbody_cons [32] [32] [x] b); [|now constructor|exact Hb]. constructor. constructor. split; [discriminate|]. constructor; [now left|constructor]. }
  change (rfc_comment ([40] ++ bs "produced by MetaSend Vx.x" ++ [41])). apply comment_intro. let z := eval vm_compute in (bs "produced by MetaSend Vx.x") in change (bs "produced by MetaSend Vx.x") with z.
  repeat first [apply W; [unfold rfc_ctext; lia|] | apply S; [unfold rfc_ctext; lia|]]. apply (cbody_end [] []). constructor.
Qed.
Lemma meta_send_lost : forall E, In E [env_default; env_mime; env_all_debug] -> exists e, mime_version E (bs "MIME-Version:" ++ meta_send ++ CRLF) = Err e.
Proof. intros E HE. eexists. destruct HE as [<-|[<-|[<-|[]]]]; vm_compute; reflexivity. Qed.

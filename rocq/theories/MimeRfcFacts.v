(* C66: the MIME headers that are recognised are headers of RFC 2045 and RFC 2183. *)
From Coq Require Import Lia ZifyBool ZifyNat ZifyN Permutation.
From Verif Require Import Base CharSets Combinators Percent MimeFields Fields Rfc5322 RfcFields Post SoundBase SoundFields Complete CompleteFields Forward ForwardMime ForwardParams
  ForwardMimeFields PercentProofs Envs ExactSpec MimeExactSpec MimeExactHeads MimeRfcSpec.
Local Open Scope N_scope.

(* ---- white space and comments ---- *)
Lemma filler_app : forall w t, filler w -> filler t -> filler (w ++ t).
Proof.
  intros w t H Ht. induction H as [|x u Hx H IH|x u Hx H IH|c u Hc H IH]; [exact Ht|now apply filler_blank|exact (filler_fold x _ Hx IH)|].
  rewrite <- app_assoc. now apply filler_comment.
Qed.
Lemma filler_wsp : forall w, chars rfc_WSP w -> filler w.
Proof. intros w H. induction H; constructor; auto. Qed.
Lemma filler_fws : forall w v, rfc_FWS w v -> filler w.
Proof.
  intros w v [u [_ H]|u1 u2 H1 [N2 H2]]; [now apply filler_wsp|]. apply filler_app; [now apply filler_wsp|].
  destruct H2 as [|x u Hx Hu]; [easy|]. apply (filler_fold x u Hx). now apply filler_wsp.
Qed.
Lemma filler_ofws : forall w v, rfc_oFWS w v -> filler w.
Proof. intros w v [|c u H]; [constructor|eapply filler_fws; eauto]. Qed.
Lemma filler_one : forall c, rfc_comment c -> filler c.
Proof. intros c H. rewrite <- (app_nil_r c). apply filler_comment; [exact H|constructor]. Qed.
Lemma filler_comments : forall t, rfc_comments t -> filler t.
Proof.
  intros t H. induction H as [w v c Hw Hc|w v c t Hw Hc H IH].
  - apply filler_app; [eapply filler_ofws; eauto|now apply filler_one].
  - apply filler_app; [eapply filler_ofws; eauto|]. now apply filler_comment.
Qed.
Lemma filler_ocfws : forall w, rfc_oCFWS w -> filler w.
Proof.
  intros w [|c [t u v H1 H2|u v H]]; [constructor| |eapply filler_fws; eauto].
  apply filler_app; [now apply filler_comments|eapply filler_ofws; eauto].
Qed.
Lemma filler_inline : forall x, inline_cfws x -> filler x.
Proof.
  intros x [w w' H H'|w c w' H Hc H']; [now apply filler_app; apply filler_wsp|].
  apply filler_app; [now apply filler_wsp|]. apply filler_comment; [exact Hc|now apply filler_wsp].
Qed.

(* ---- tokens ---- *)
Lemma ends_filler : forall w t, filler w -> token_ends t -> token_ends (w ++ t).
Proof.
  intros w t H Ht. destruct H as [|x u Hx _|x u Hx _|c u [b _] _]; [exact Ht| | |].
  - cbn. unfold rfc_WSP in Hx. unfold mime_token_char. lia.
  - cbn. unfold mime_token_char. lia.
  - cbn. unfold mime_token_char. cbn. lia.
Qed.
Lemma ends_special : forall x t, In x (bs "/;=") -> token_ends (x :: t).
Proof. intros x t H. cbn in *. unfold mime_token_char. cbn. lia. Qed.
Lemma lexes_fill : forall w t l, filler w -> lexes t l -> lexes (w ++ t) l.
Proof.
  intros w t l Hw H. destruct H as [u H|u c t l H Hc Ht H'|u b v t l H Hb H'|u x t l H Hx H']; rewrite ?(app_assoc w u).
  - constructor. now apply filler_app.
  - constructor; auto. now apply filler_app.
  - constructor; auto. now apply filler_app.
  - constructor; auto. now apply filler_app.
Qed.
Lemma nocase_token : forall c n, same_nocase c n -> mime_token n -> mime_token c.
Proof.
  intros c n H [H1 H2]. unfold same_nocase in H. revert n H H1 H2. induction c as [|x c IH]; intros n H H1 H2.
  - destruct n; [easy|discriminate].
  - destruct n as [|y n]; [discriminate|]. cbn in H. injection H as H0 H. inversion H2 as [|y' n' Hy Hn E1]; subst. split; [discriminate|]. constructor.
    + unfold mime_token_char in *. cbn in *. unfold fold_case in H0. destruct ((65 <=? x) && (x <=? 90)) eqn:X, ((65 <=? y) && (y <=? 90)) eqn:Y; lia.
    + destruct c as [|x' c]; [constructor|]. destruct n as [|y' n]; [discriminate|]. now apply (IH (y' :: n)).
Qed.
Lemma keyword_token : forall A (table : list (bytes * A)) other c a, (forall n b, In (n, b) table -> mime_token n) -> rfc_keyword table other c a -> mime_token c.
Proof. intros A table other c a HT [n c' a' Hin Hn|c' Hc _]; [|exact Hc]. apply (nocase_token c' n Hn). eapply HT; eauto. Qed.
Local Ltac chars_ok := split; [discriminate|]; repeat (constructor; [unfold mime_token_char; vm_compute; intuition discriminate|]); constructor.
Local Ltac toks := let n := fresh "n" in let b := fresh "b" in let H := fresh in intros n b H; vm_compute in H; repeat destruct H as [H|H];
  solve [destruct H | injection H as <- _; chars_ok].
Lemma type_tokens : forall n b, In (n, b) mime_types -> mime_token n. Proof. toks. Qed.
Lemma mechanism_tokens : forall n b, In (n, b) mime_encodings -> mime_token n. Proof. toks. Qed.
Lemma disposition_tokens : forall n b, In (n, b) mime_dispositions -> mime_token n. Proof. toks. Qed.

(* ---- parameters ---- *)
Definition the_param (p : bytes * bytes) (r : param) : Prop := let '(a, i, e, v) := r in rfc_param_name (fst p) (a, i, e) /\ snd p = v.
Lemma param_name_token : forall n v, rfc_param_name n v -> mime_token n.
Proof.
  intros n v [a c i e Ha Hc|a Ha]; [|exact Ha]. destruct Ha as [A1 A2]. split; [destruct a; [easy|discriminate]|].
  apply Forall_app. split; [revert A2; apply Forall_impl; now intros x []|]. apply Forall_app. split.
  - destruct Hc as [|d [_ Hd] _]; [constructor|]. constructor; [unfold mime_token_char; cbn; lia|]. revert Hd. apply Forall_impl. intros x Hx. unfold rfc_DIGIT in Hx. unfold mime_token_char. cbn. lia.
  - destruct e; constructor; [unfold mime_token_char; cbn; lia|constructor].
Qed.
Lemma param_lexes : forall w w' n c v t l, rfc_oCFWS w -> rfc_oCFWS w' -> mime_token n -> rfc_param_value c v -> token_ends t -> lexes t l ->
  exists x, lexeme_value x v /\ lexes ((w ++ bs ";" ++ w' ++ n ++ bs "=" ++ c) ++ t) (LSpecial 59 :: LToken n :: LSpecial 61 :: x :: l)
    /\ token_ends ((w ++ bs ";" ++ w' ++ n ++ bs "=" ++ c) ++ t).
Proof.
  intros w w' n c v t l Hw Hw' Hn Hc Ht H.
  assert (exists x, lexeme_value x v /\ lexes (c ++ t) (x :: l)) as (x & Hx & L).
  { destruct Hc as [c Hc|c v [u b v' u' Hu Hb Hu']].
    - exists (LToken c). split; [constructor|]. apply (lexes_token [] c t l); auto. constructor.
    - exists (LQuoted v'). split; [constructor|]. rewrite <- !app_assoc. apply lexes_quoted; [now apply filler_ocfws|exact Hb|]. apply lexes_fill; [now apply filler_ocfws|exact H]. }
  exists x. split; [exact Hx|]. rewrite <- !app_assoc. split.
  - apply (lexes_special w 59); [now apply filler_ocfws|cbn; auto|]. apply lexes_token; [now apply filler_ocfws|exact Hn|apply ends_special; cbn; auto|].
    apply (lexes_special [] 61); [constructor|cbn; auto|exact L].
  - apply ends_filler; [now apply filler_ocfws|]. apply ends_special. cbn. auto.
Qed.
Lemma params_lex : forall ps raw x, many_of rfc_param ps raw -> filler x ->
  exists l q, lexes (ps ++ x) l /\ token_ends (ps ++ x) /\ rfc_parameters l q /\ Forall2 the_param q raw.
Proof.
  intros ps raw x H Hx. induction H as [|c a cs raw Hc H IH].
  - exists [], []. split; [now constructor|]. split; [rewrite <- (app_nil_r x); now apply (ends_filler x [])|]. split; constructor.
  - destruct IH as (l & q & L & T & P & F). destruct Hc as [w w' n a i e c v Hw Hw' Hn Hv]. rewrite <- (app_assoc _ cs x).
    destruct (param_lexes w w' n c v (cs ++ x) l Hw Hw' (param_name_token _ _ Hn) Hv T L) as (y & Hy & L' & T').
    exists (LSpecial 59 :: LToken n :: LSpecial 61 :: y :: l), ((n, v) :: q). split; [exact L'|]. split; [exact T'|]. split; [now constructor|]. constructor; [now split|exact F].
Qed.

(* ---- without asterisks ---- *)
Lemma plain_name : forall n a i e, rfc_param_name n (a, i, e) -> ~ In 42 n -> a = map fold_case n /\ i = None.
Proof.
  intros n a i e H Hn. inversion H as [a' c i' e' Ha Hc E1 E2|a' Ha E1 E2]; subst; [|auto].
  destruct Hc as [|d Hd _]; [|destruct Hn; apply in_or_app; right; left; reflexivity].
  destruct e; [destruct Hn; apply in_or_app; right; left; reflexivity|]. now rewrite !app_nil_r.
Qed.
Lemma plain_attributes : forall q raw, Forall2 the_param q raw -> no_extension q ->
  (forall n k, segment raw n k = None) /\ forall n, plain_value raw n = attribute q n.
Proof.
  intros q raw F. induction F as [|[m v'] [[[a i] e] v] q raw [Hp Hv] F IH]; intros H; [split; reflexivity|].
  apply Forall_cons_iff in H as [Hm H]. destruct (IH H) as [S P]. cbn [fst snd] in Hp, Hv, Hm. destruct (plain_name _ _ _ _ Hp Hm) as [-> ->]. subst v'. split.
  - intros n k. unfold segment in *. cbn [last_some]. rewrite S. now destruct (bytes_eqb n (map fold_case m)).
  - intros n. specialize (P n). unfold plain_value, attribute in *. cbn [last_some]. rewrite P. reflexivity.
Qed.
Lemma plain_params : forall tc q raw l, Forall2 the_param q raw -> params_value tc raw l -> no_extension q -> forall n, map_get l n = attribute q n.
Proof.
  intros tc q raw l F HV H n. destruct (plain_attributes q raw F H) as [S P]. specialize (HV n). inversion HV as [H0 E1|s v cs r H0]; [|rewrite S in H0; discriminate].
  now rewrite <- P.
Qed.

(* ---- what is recognised conforms ---- *)
Lemma type_conforms : forall E h i k s l, env_ok E -> content_type E h = Ok (i, (k, s, l)) ->
  exists n t c s' ps, h = n ++ bs ":" ++ t ++ CRLF ++ i /\ same_nocase n (bs "Content-Type") /\ rfc2045_type t c s' ps /\
    rfc_keyword mime_types CUnknown c k /\ s = map fold_case s' /\ (no_extension ps -> forall a, map_get l a = attribute ps a).
Proof.
  intros E h i k s l HE H. pose proof (sound_content_type E h (ok_hash E HE)) as S. rewrite H in S. destruct S as (c & -> & S).
  inversion S as [n t v Hn Ht E1 E2]; subst. inversion Ht as [w c' k' s' ps raw l' x Hw Hk Hs Hps Hv Hx E1 E2]; subst.
  destruct (params_lex ps raw x Hps (filler_inline x Hx)) as (ll & q & L & T & P & F).
  exists n, (w ++ c' ++ bs "/" ++ s' ++ ps ++ x), c', s', q. split; [now rewrite <- !app_assoc|]. split; [exact Hn|]. split; [|split; [exact Hk|split; [reflexivity|now apply (plain_params (textcode E) q raw)]]].
  exists ll. split; [|exact P]. apply lexes_token; [now apply filler_ocfws|eapply keyword_token; [apply type_tokens|eauto]|apply ends_special; cbn; auto|].
  apply (lexes_special [] 47); [constructor|cbn; auto|]. apply (lexes_token [] s'); [constructor|exact Hs|exact T|exact L].
Qed.
Lemma mechanism_conforms : forall E h i e, content_transfer_encoding E h = Ok (i, e) ->
  exists n t c, h = n ++ bs ":" ++ t ++ CRLF ++ i /\ same_nocase n (bs "Content-Transfer-Encoding") /\ rfc2045_mechanism t c /\ rfc_keyword mime_encodings UnknownEnc c e.
Proof.
  intros E h i e H. pose proof (sound_encoding E (fun _ => True) h) as S. rewrite H in S. destruct S as (c & -> & S).
  inversion S as [n t v Hn Ht E1 E2]; subst. inversion Ht as [w c' k' x Hw Hk Hx E1 E2]; subst.
  exists n, (w ++ c' ++ x), c'. split; [now rewrite <- !app_assoc|]. split; [exact Hn|]. split; [|exact Hk].
  apply lexes_token; [now apply filler_ocfws|eapply keyword_token; [apply mechanism_tokens|eauto]| |constructor; now apply filler_inline].
  rewrite <- (app_nil_r x). apply ends_filler; [now apply filler_inline|exact I].
Qed.
Lemma version_conforms : forall E h i v, mime_version E h = Ok (i, v) ->
  exists n t, h = n ++ bs ":" ++ t ++ CRLF ++ i /\ same_nocase n (bs "MIME-Version") /\ rfc2045_version t v.
Proof.
  intros E h i e H. pose proof (sound_mime_version E (fun _ => True) h) as S. rewrite H in S. destruct S as (c & -> & S).
  inversion S as [n t v Hn Ht E1 E2]; subst. inversion Ht as [w c1 c2 x Hw Hc1 Hc2 B1 B2 Hx E1 E2]; subst.
  exists n, (w ++ c1 ++ bs "." ++ c2 ++ x). split; [now rewrite <- !app_assoc|]. split; [exact Hn|].
  apply (rfc2045_version_intro w c1 [] [] c2 x); auto; try constructor; [now apply filler_ocfws|now apply filler_inline].
Qed.

(* a disposition without dates *)
Definition the_item (p : bytes * bytes) (i : disposition_item) : Prop :=
  match i with DFilename v => same_nocase (fst p) (bs "filename") /\ snd p = v | DParam r => the_param p r /\ ~ same_nocase (fst p) (bs "filename") | _ => False end.
Lemma filename_token : forall n, same_nocase n (bs "filename") -> mime_token n.
Proof. intros n H. apply (nocase_token n _ H). chars_ok. Qed.
Lemma items_lex : forall is items x, many_of (fun c a => exists rest q, mime_item rest q c a) is items -> filler x ->
  last_some (fun i => match i with DCreation v => Some v | _ => None end) items = None ->
  last_some (fun i => match i with DModification v => Some v | _ => None end) items = None ->
  last_some (fun i => match i with DRead v => Some v | _ => None end) items = None ->
  exists l q, lexes (is ++ x) l /\ token_ends (is ++ x) /\ rfc_parameters l q /\ Forall2 the_item q items.
Proof.
  intros is items x H Hx. induction H as [|c a cs items Hc H IH]; intros D1 D2 D3.
  - exists [], []. split; [now constructor|]. split; [rewrite <- (app_nil_r x); now apply (ends_filler x [])|]. split; constructor.
  - cbn [last_some] in D1, D2, D3.
    destruct (last_some (fun i => match i with DCreation v => Some v | _ => None end) items) eqn:L1; [discriminate|].
    destruct (last_some (fun i => match i with DModification v => Some v | _ => None end) items) eqn:L2; [discriminate|].
    destruct (last_some (fun i => match i with DRead v => Some v | _ => None end) items) eqn:L3; [discriminate|].
    destruct (IH eq_refl eq_refl eq_refl) as (l & q & L & T & P & F). clear IH. rewrite <- (app_assoc _ cs x).
    destruct Hc as (rest & b & Hc). destruct Hc as [w w' n b c v Hw Hw' Hn Hv|name mk w w' n c d Hin Hw Hw' Hn Hc|w w' n a i e b c v Hw Hw' Hn Hv Hno HD].
    + destruct (param_lexes w w' n c v (cs ++ x) l Hw Hw' (filename_token n Hn) (mime_value_rfc _ _ _ Hv) T L) as (y & Hy & L' & T').
      exists (LSpecial 59 :: LToken n :: LSpecial 61 :: y :: l), ((n, v) :: q). split; [exact L'|]. split; [exact T'|]. split; [now constructor|]. constructor; [now split|exact F].
    + exfalso. unfold dated in Hin. cbn [In] in Hin. destruct Hin as [X|[X|[X|[]]]]; injection X as <- <-; discriminate.
    + assert (Hn' : rfc_param_name n (a, i, e)) by (inversion Hn as [n' v' X|a' Ha X]; subst; [inversion X; subst; now constructor|now apply param_name_plain]).
      destruct (param_lexes w w' n c v (cs ++ x) l Hw Hw' (param_name_token _ _ Hn') (mime_value_rfc _ _ _ Hv) T L) as (y & Hy & L' & T').
      exists (LSpecial 59 :: LToken n :: LSpecial 61 :: y :: l), ((n, v) :: q). split; [exact L'|]. split; [exact T'|]. split; [now constructor|]. constructor; [|exact F]. split; [now split|exact Hno].
Qed.
Lemma item_filename : forall q items, Forall2 the_item q items ->
  last_some (fun i => match i with DFilename v => Some v | _ => None end) items = attribute q (bs "filename").
Proof.
  intros q items F. induction F as [|[n v] i q items H F IH]; [reflexivity|]. unfold attribute in *. cbn [last_some]. rewrite IH.
  match goal with |- context [last_some ?f q] => destruct (last_some f q) end; [reflexivity|]. destruct i as [u| | | |[[[a k] e] u]]; cbn [the_item fst snd] in H; try easy.
  - destruct H as [H ->]. unfold same_nocase in H. rewrite H. reflexivity.
  - destruct H as [_ H]. destruct (bytes_eqb (bs "filename") (map fold_case n)) eqn:B; [|reflexivity]. apply bytes_eqb_eq in B. destruct H. unfold same_nocase. now rewrite <- B.
Qed.
Lemma item_params : forall q items, Forall2 the_item q items -> no_extension q ->
  (forall n k, segment (params_of items) n k = None) /\ forall n, n <> bs "filename" -> plain_value (params_of items) n = attribute q n.
Proof.
  intros q items F. induction F as [|[m v'] i q items H F IH]; intros Hq; [split; reflexivity|].
  apply Forall_cons_iff in Hq as [Hm Hq]. destruct (IH Hq) as [S P]. destruct i as [u| | | |[[[a k] e] u]]; cbn [the_item fst snd] in H, Hm; try easy.
  - change (params_of (DFilename u :: items)) with (params_of items). split; [exact S|]. intros n Hn. rewrite (P n Hn). unfold attribute. cbn [last_some].
    match goal with |- context [last_some ?f q] => destruct (last_some f q) end; [reflexivity|]. destruct (bytes_eqb n (map fold_case m)) eqn:B; [|reflexivity]. apply bytes_eqb_eq in B. destruct Hn. rewrite B. exact (proj1 H).
  - destruct H as [[Hp Hv] _]. cbn [fst snd] in Hp, Hv. destruct (plain_name _ _ _ _ Hp Hm) as [-> ->]. subst v'.
    change (params_of (DParam (map fold_case m, None, e, u) :: items)) with ((map fold_case m, @None N, e, u) :: params_of items). split.
    + intros n k. specialize (S n k). unfold segment in *. cbn [last_some]. rewrite S. now destruct (bytes_eqb n (map fold_case m)).
    + intros n Hn. specialize (P n Hn). unfold plain_value, attribute in *. cbn [last_some]. rewrite P. reflexivity.
Qed.
Lemma disposition_conforms : forall E h i d, env_ok E -> content_disposition E h = Ok (i, d) ->
  disp_creation_date d = None -> disp_modification_date d = None -> disp_read_date d = None ->
  exists n t c ps, h = n ++ bs ":" ++ t ++ CRLF ++ i /\ same_nocase n (bs "Content-Disposition") /\ rfc2183_disposition t c ps /\
    rfc_keyword mime_dispositions DUnknown c (disposition_type d) /\ disp_filename d = attribute ps (bs "filename") /\
    (no_extension ps -> forall a, a <> bs "filename" -> map_get (disp_unstructured d) a = attribute ps a).
Proof.
  intros E h i d HE H D1 D2 D3. apply (disposition_back E h i d (ok_hash E HE)) in H as (n & b & t & x & -> & Hn & V & _).
  destruct V as [w c k is l r x q Hw Hk Hps Hv Hx]. cbn [disposition_type disp_filename disp_creation_date disp_modification_date disp_read_date disp_unstructured] in *.
  assert (M : many_of (fun c a => exists rest q, mime_item rest q c a) is l) by (eapply items_many; [|exact Hps]; intros; eauto).
  destruct (items_lex is l x M (filler_inline x Hx) D1 D2 D3) as (ll & ps & L & T & P & F).
  assert (Hk' : rfc_keyword mime_dispositions DUnknown c k).
  { destruct Hk as [m c k Hin Hm|c Hc Hno]; [econstructor; eauto|]. constructor; [exact Hc|]. intros m a Hin Hm. apply (Hno m a c [] Hin); [now rewrite app_nil_r|exact Hm]. }
  exists n, (w ++ c ++ is ++ x), c, ps. split; [now rewrite <- !app_assoc|]. split; [exact Hn|]. split; [|split; [exact Hk'|split; [now apply item_filename|]]].
  - exists ll. split; [|exact P]. apply lexes_token; [now apply filler_ocfws|eapply keyword_token; [apply disposition_tokens|eauto]|exact T|exact L].
  - intros Hq a Ha. destruct (item_params ps l F Hq) as [S Pv]. specialize (Hv a). inversion Hv as [H0 E1|s v cs u H0]; [|rewrite S in H0; discriminate]. now apply Pv.
Qed.

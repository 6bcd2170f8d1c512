(* C56: exactly which texts are parts, and which tree they stand for. *)
From Coq Require Import Lia ZifyBool ZifyNat ZifyN Permutation.
From Verif Require Import SafetyProofs Base Utf8 CharSets Combinators Whitespace QuotedString EncodedWord Common Time Address Percent Charset MimeFields Fields Message Entity Email Envs
  Rfc5322 Rfc2047 Post CodecSpec RfcFields SoundBase SoundTime SoundAddr TagNoCase ParamProofs SoundFields EmailSpec SoundMessage EmailProofs MessageFacts Steps Complete CompleteFields Forward ForwardText
  ForwardMime ForwardParams ForwardParts ForwardMimeFields ForwardTrace ForwardFields ForwardMessage HeaderFacts Local LocalFacts Writers WriteFacts LessFacts LineSpec LineFacts PercentProofs ExactFacts MimeExactSpec MimeExactParts MimeExactBack MimeExactHeads
  PhraseSpec MimeExactFields MimeExactFacts MultipartSpec EntitySpec EntityProofs MultipartRound ParamSpec OrderFacts CutSpec CutFacts TreeSpec TreeFacts RangeWrite KeenFacts PartExactSpec.
Local Open Scope N_scope.

(* ---- the parser of part headers and that of the headers of a message ---- *)
Definition to_header (f : field) : entity_header :=
  match f with
  | FContentTransferEncoding e => HEncoding e
  | FContentType t s p => HType t s p
  | FContentId i => HId i
  | FContentDescription d => HDescription d
  | FContentDisposition d => HDisposition d
  | FUnknown n v => HOther n v
  | _ => HOther [] []
  end.
Lemma part_names_known : forall name, In name part_names -> In name names.
Proof. intros name H. cbn in H. unfold names. cbn. repeat (destruct H as [<-|H]; [tauto|]). destruct H. Qed.
Lemma names_others : forall a b i, In a names -> In b names -> a <> b -> ~ without a i -> without b i.
Proof. intros a b i Ha Hb N W. apply with_name in W as (n & r & -> & Hn). eapply header_other; eauto using names_colon. apply names_apart; auto. Qed.
Definition fails (i : bytes) {A} (p : parser A) : Prop := exists e, p i = Err e.
Lemma only_one : forall A (l : list (parser A)) p l2 u i, Forall (fails i) l -> Forall (fails i) l2 ->
  match_parsers (l ++ p :: l2 ++ [u]) i = match p i with Err _ => match_parsers [u] i | z => z end.
Proof.
  intros A l p l2 u i H H2. induction H as [|q l [e Hq] _ IH]; cbn [app match_parsers]; [|rewrite Hq; exact IH].
  destruct (p i) as [x|e|k]; cbn [attempt]; [reflexivity| |reflexivity]. induction H2 as [|q l2 [e' Hq] _ IH]; cbn [app match_parsers]; [reflexivity|]. rewrite Hq. exact IH.
Qed.
Ltac others O := repeat (constructor; [apply pmap_err; field_none; apply O; [cbn; tauto|discriminate]|]); constructor.
Lemma any_named : forall E name i, In name part_names -> ~ without name i ->
  (forall b, In b names -> b <> name -> without b i) /\
  forall x, In x (entries E) -> ename x = name -> snd (fst x) E = true -> any_field E i = match snd x i with Err _ => match_parsers [unk E] i | z => z end.
Proof.
  intros E name i Hn W. assert (O : forall b, In b names -> b <> name -> without b i) by (intros b Hb N; apply (names_others name); auto using part_names_known). split; [exact O|].
  intros x Hx X F. rewrite LessFacts.any_field_on. rewrite (on_select E (entries E) [unk E] i x Hx); [now rewrite F|rewrite entries_names; exact names_nodup|].
  intros y Hy N. apply (entry_without E y i Hy). apply O; [apply (in_map ename) in Hy; now rewrite entries_names in Hy|congruence].
Qed.
Definition part_kind (f : field) : Prop :=
  match f with FContentTransferEncoding _ | FContentType _ _ _ | FContentId _ | FContentDescription _ | FContentDisposition _ | FUnknown _ _ => True | _ => False end.
Lemma named_kind : forall E name i r f, f_mime E = true -> In name part_names -> ~ without name i -> any_field E i = Ok (r, f) -> part_kind f.
Proof.
  intros E name i r f HM Hn W H. destruct (any_named E name i Hn W) as [_ S]. assert (U : match_parsers [unk E] i = Ok (r, f) -> part_kind f).
  { intros X. apply match_ok in X as (p & [<-|[]] & X). apply pmap_inv in X as [[n v] ->]. exact I. }
  assert (K : forall x, In x (entries E) -> ename x = name -> snd (fst x) E = true -> (forall f, snd x i = Ok (r, f) -> part_kind f) -> part_kind f).
  { intros x Hx N F K. rewrite (S x Hx N F) in H. destruct (snd x i) as [[r' f']|e|k]; [injection H as -> ->; now apply K|auto|discriminate]. }
  cbn in Hn. repeat destruct Hn as [<-|Hn]; [..|destruct Hn].
  - apply (K ("Content-Transfer-Encoding"%string, f_mime, pmap FContentTransferEncoding (content_transfer_encoding E)) ltac:(cbn; tauto) eq_refl HM). intros g X. cbn [snd] in X. apply pmap_inv in X as [a ->]. exact I.
  - apply (K ("Content-Type"%string, f_mime, pmap (fun '(t, s, p) => FContentType t s p) (content_type E)) ltac:(cbn; tauto) eq_refl HM). intros g X. cbn [snd] in X. apply pmap_inv in X as [[[? ?] ?] ->]. exact I.
  - apply (K ("Content-ID"%string, f_mime, pmap FContentId (content_id E)) ltac:(cbn; tauto) eq_refl HM). intros g X. cbn [snd] in X. apply pmap_inv in X as [a ->]. exact I.
  - apply (K ("Content-Description"%string, f_mime, pmap FContentDescription (content_description E)) ltac:(cbn; tauto) eq_refl HM). intros g X. cbn [snd] in X. apply pmap_inv in X as [a ->]. exact I.
  - apply (K ("Content-Disposition"%string, f_mime, pmap FContentDisposition (content_disposition E)) ltac:(cbn; tauto) eq_refl HM). intros g X. cbn [snd] in X. apply pmap_inv in X as [a ->]. exact I.
Qed.
Lemma named_same : forall E name i, f_mime E = true -> In name part_names -> ~ without name i -> entity_header_parser E i = pmap to_header (any_field E) i.
Proof.
  intros E name i HM Hn W. destruct (any_named E name i Hn W) as [O S].
  assert (U : match_parsers [pmap (fun '(n, v) => HOther n v) (unknown E)] i = pmap to_header (match_parsers [unk E]) i).
  { cbn [match_parsers]. unfold unk, pmap. destruct (unknown E i) as [[r [n v]]|e|k]; reflexivity. }
  unfold pmap in U |- * at 1. cbn in Hn. unfold entity_header_parser. repeat destruct Hn as [<-|Hn]; [..|destruct Hn].
  - rewrite (S ("Content-Transfer-Encoding"%string, f_mime, pmap FContentTransferEncoding (content_transfer_encoding E)) ltac:(cbn; tauto) eq_refl HM). cbn [snd fst].
    etransitivity; [refine (only_one _ [] _ [pmap (fun '(t, s, p) => HType t s p) (content_type E); pmap HId (content_id E); pmap HDescription (content_description E); pmap HDisposition (content_disposition E)] _ i _ _); others O|].
    unfold pmap at 1 3. destruct (content_transfer_encoding E i) as [[r a]|e|k]; cbn [bind]; [reflexivity|exact U|reflexivity].
  - rewrite (S ("Content-Type"%string, f_mime, pmap (fun '(t, s, p) => FContentType t s p) (content_type E)) ltac:(cbn; tauto) eq_refl HM). cbn [snd fst].
    etransitivity; [refine (only_one _ [pmap HEncoding (content_transfer_encoding E)] _ [pmap HId (content_id E); pmap HDescription (content_description E); pmap HDisposition (content_disposition E)] _ i _ _); others O|].
    unfold pmap at 1 3. destruct (content_type E i) as [[r [[t s] p]]|e|k]; cbn [bind]; [reflexivity|exact U|reflexivity].
  - rewrite (S ("Content-ID"%string, f_mime, pmap FContentId (content_id E)) ltac:(cbn; tauto) eq_refl HM). cbn [snd fst].
    etransitivity; [refine (only_one _ [pmap HEncoding (content_transfer_encoding E); pmap (fun '(t, s, p) => HType t s p) (content_type E)] _ [pmap HDescription (content_description E); pmap HDisposition (content_disposition E)] _ i _ _); others O|].
    unfold pmap at 1 3. destruct (content_id E i) as [[r a]|e|k]; cbn [bind]; [reflexivity|exact U|reflexivity].
  - rewrite (S ("Content-Description"%string, f_mime, pmap FContentDescription (content_description E)) ltac:(cbn; tauto) eq_refl HM). cbn [snd fst].
    etransitivity; [refine (only_one _ [pmap HEncoding (content_transfer_encoding E); pmap (fun '(t, s, p) => HType t s p) (content_type E); pmap HId (content_id E)] _ [pmap HDisposition (content_disposition E)] _ i _ _); others O|].
    unfold pmap at 1 3. destruct (content_description E i) as [[r a]|e|k]; cbn [bind]; [reflexivity|exact U|reflexivity].
  - rewrite (S ("Content-Disposition"%string, f_mime, pmap FContentDisposition (content_disposition E)) ltac:(cbn; tauto) eq_refl HM). cbn [snd fst].
    etransitivity; [refine (only_one _ [pmap HEncoding (content_transfer_encoding E); pmap (fun '(t, s, p) => HType t s p) (content_type E); pmap HId (content_id E); pmap HDescription (content_description E)] _ [] _ i _ _); others O|].
    unfold pmap at 1 3. destruct (content_disposition E i) as [[r a]|e|k]; cbn [bind]; [reflexivity|exact U|reflexivity].
Qed.

Lemma with_header : forall (name : string) n r, same_nocase n (bs name) -> ~ without name (n ++ [58] ++ r).
Proof. intros name n r H. unfold without. rewrite app_assoc. rewrite starts_nocase_app; [discriminate|]. unfold same_nocase in *. rewrite !map_app. now f_equal. Qed.
Lemma with_value : forall (name : string) A (V : bytes -> A -> Prop) c v i, rfc_header name V c v -> ~ without name (c ++ i).
Proof. intros name A V c v i [n t v' Hn _]. rewrite <- !app_assoc. now apply with_header. Qed.
Lemma nocase_name : forall n (a b : string), In a names -> In b names -> same_nocase n (bs a) -> same_nocase n (bs b) -> a = b.
Proof.
  intros n a b Ha Hb X Y. destruct (string_dec a b) as [|N]; [assumption|]. exfalso. pose proof (names_apart a b Ha Hb N) as Q. unfold same_nocase in *. rewrite <- X, <- Y in Q.
  enough (bytes_eqb (map fold_case n) (map fold_case n) = true) by congruence. now apply bytes_eqb_eq.
Qed.
Section Parts.
Variable E : env.
Hypothesis HE : env_ok E.
Hypothesis HM : f_mime E = true.
Hypothesis HD : debug E = false.

(* ---- one header ---- *)
Lemma part_named : forall c h, part_field E c h -> exists name, In name part_names /\ forall i, ~ without name (c ++ i).
Proof.
  intros c h H. destruct H as [c e H|n q t x k s l Hn H|c v H|c v H|n q t x d Hn H].
  - exists "Content-Transfer-Encoding"%string. split; [cbn; tauto|]. intros i. eapply with_value; eauto.
  - exists "Content-Type"%string. split; [cbn; tauto|]. intros i. rewrite <- !app_assoc. now apply with_header.
  - exists "Content-ID"%string. split; [cbn; tauto|]. intros i. eapply with_value; eauto.
  - exists "Content-Description"%string. split; [cbn; tauto|]. intros i. eapply with_value; eauto.
  - exists "Content-Disposition"%string. split; [cbn; tauto|]. intros i. rewrite <- !app_assoc. now apply with_header.
Qed.
Lemma part_cut_named : forall c r, part_cut E c r -> exists name, In name part_names /\ forall i, ~ without name (c ++ i).
Proof.
  intros c r H. destruct H as [c e r H|n t x v r Hn H _|n t x d r Hn H _].
  - exists "Content-Transfer-Encoding"%string. split; [cbn; tauto|]. intros i. eapply with_value; eauto.
  - exists "Content-Type"%string. split; [cbn; tauto|]. intros i. rewrite <- !app_assoc. now apply with_header.
  - exists "Content-Disposition"%string. split; [cbn; tauto|]. intros i. rewrite <- !app_assoc. now apply with_header.
Qed.
Lemma part_mime : forall c h, part_field E c h -> exists f, mime_field E c f /\ h = to_header f /\ part_kind f.
Proof.
  intros c h H. destruct H as [c e H|n q t x k s l Hn H|c v H|c v H|n q t x d Hn H].
  - exists (FContentTransferEncoding e). split; [|split; [reflexivity|exact I]]. apply mime_clear; [now apply clear_encoding_field|intros K; exact K].
  - exists (FContentType k s l). split; [|split; [reflexivity|exact I]]. eapply mime_type_field; eauto.
  - exists (FContentId v). split; [|split; [reflexivity|exact I]]. apply mime_clear; [now apply clear_content_id|intros K; exact K].
  - exists (FContentDescription v). split; [|split; [reflexivity|exact I]]. apply mime_clear; [now apply clear_content_description|intros K; exact K].
  - exists (FContentDisposition d). split; [|split; [reflexivity|exact I]]. eapply mime_disposition_field; eauto.
Qed.
Lemma part_cut_mime : forall c r, part_cut E c r -> cut_field E c r.
Proof. intros c r []; [eapply cut_encoding|eapply cut_type|eapply cut_disposition]; eauto. Qed.
Lemma cut_mime_part : forall name n t c r, In name part_names -> same_nocase n (bs name) -> n ++ [58] ++ t = c ++ r -> cut_field E c r -> part_cut E c r.
Proof.
  intros name n t c r Hin Hn X H. assert (NC : ~ In 58 n) by (eapply fold_nocolon; [exact Hn|now apply part_names_no_colon]).
  assert (Q : forall (other : string) m u, same_nocase m (bs other) -> In other names -> ~ In other part_names -> n ++ [58] ++ t = m ++ [58] ++ u -> False).
  { intros other m u Hm Ho HN Y. cbn [app] in Y. apply colon_unique in Y as [-> _]; auto; [|eapply fold_nocolon; [exact Hm|now apply names_colon]]. apply HN. now rewrite (nocase_name m other name Ho (part_names_known _ Hin) Hm Hn). }
  destruct H as [c v r H|c e r H|m u x v r Hm H HN|m u x d r Hm H HN|m u l r F Hm H HN].
  - exfalso. destruct H as [m u v' Hm _]. apply (Q "MIME-Version"%string m (u ++ CRLF ++ r) Hm); [cbn; tauto|cbn; intuition discriminate|]. rewrite X. now rewrite <- !app_assoc.
  - eapply part_cut_encoding; eauto.
  - eapply part_cut_type; eauto.
  - eapply part_cut_disposition; eauto.
  - exfalso. apply (Q "Keywords"%string m (u ++ CRLF ++ r) Hm); [cbn; tauto|cbn; intuition discriminate|]. rewrite X. now rewrite <- !app_assoc.
Qed.
Lemma part_names_all : forall name, In name part_names -> In name (known_names E).
Proof. intros name H. unfold known_names. rewrite HM. cbn [when]. rewrite !in_app_iff. cbn in H. cbn [In]. tauto. Qed.
Lemma names_dec : forall i, (forall name, In name part_names -> without name i) \/ exists name, In name part_names /\ ~ without name i.
Proof.
  intros i. generalize part_names. intros l. induction l as [|a l [IH|(b & Hb & IH)]]; [left; intros n []| |right; exists b; split; [now right|exact IH]].
  destruct (without_dec a i) as [W|W]; [left; intros n [<-|Hn]; auto|right; exists a; split; [now left|exact W]].
Qed.
Lemma part_read_inv : forall j r h, entity_header_parser E j = Ok (r, h) -> no_blank r -> exists c, j = c ++ r /\ part_read E c h.
Proof.
  intros j r h H Hr. pose proof (no_blank_ends _ Hr) as Hi. destruct (names_dec j) as [W|(name & Hn & W)].
  - rewrite (unnamed_part E j W) in H. apply match_ok in H as (p & [<-|[]] & H). unfold pmap in H. destruct (unknown E j) as [[r' [n v]]|e|k] eqn:U; cbn [bind] in H; try discriminate. injection H as -> <-.
    pose proof (sound_unknown E never j) as S. rewrite U in S. destruct S as (c & -> & S). inversion S as [n' t v' Hn Ht]; subst n' v' c. exists (n ++ bs ":" ++ t ++ CRLF). split; [reflexivity|]. change (bs ":") with [58] in *.
    destruct (unknown_text E t v Ht) as [v' Hv]. pose proof (unknown_forward E n t v' r Hn Hv Hi) as X. rewrite <- !app_assoc in U. rewrite U in X. injection X as <-.
    apply (part_read_other E n t v Hn Hv).
    + intros h Hh. destruct (part_named _ _ Hh) as (name & Hin & N). exact (N r (W name Hin)).
    + intros c r0 X _ Hc. destruct (part_cut_named _ _ Hc) as (name & Hin & N). apply (N (r0 ++ r)). rewrite app_assoc, <- X. exact (W name Hin).
  - rewrite (named_same E name j HM Hn W) in H. unfold pmap in H. destruct (any_field E j) as [[r' f]|e|k] eqn:A; cbn [bind] in H; try discriminate. injection H as -> <-.
    pose proof (named_kind E name j r f HM Hn W A) as K. pose proof (any_field_origin E _ _ _ A) as O. destruct (mime_read_inv E HE HM HD j r f A Hr) as (c & -> & Hc). exists c. split; [reflexivity|].
    destruct Hc as [c f Hf|n t v Hft Hv HN HC].
    2:{ change (bs ":") with [58] in *. apply (part_read_other E n t v Hft Hv); change (bs ":") with [58].
        - intros h Hh. destruct (part_mime _ _ Hh) as (f & Hf & _). exact (HN f Hf).
        - intros c r0 X R Y. exact (HC c r0 X R (part_cut_mime _ _ Y)). }
    destruct f; try (exfalso; exact K); cbn [to_header origin] in *.
    + destruct (type_back E _ r _ (ok_hash E HE) O) as (nn & qq & tt & xx & X & Hm & Ht & _). replace c with (nn ++ [58] ++ tt ++ CRLF) by (apply (app_inv_tail r); rewrite <- !app_assoc; now symmetry).
      apply part_read_field. apply (part_field_type E nn qq tt xx); [exact Hm|]. eapply type_shrink; eauto.
    + pose proof (encoding_back E never (c ++ r)) as S. rewrite O in S. destruct S as (c' & X & S). apply app_inv_tail in X. subst c'. now apply part_read_field, part_field_encoding.
    + inversion Hf as [c' f' Hf' _|c' f' Hf'| |]; subst; [|inversion Hf']. inversion Hf'; subst. now apply part_read_field, part_field_id.
    + inversion Hf as [c' f' Hf' _|c' f' Hf'| |]; subst; [|inversion Hf']. inversion Hf'; subst. now apply part_read_field, part_field_description.
    + destruct (disposition_back E _ r _ (ok_hash E HE) O) as (nn & qq & tt & xx & X & Hm & Ht & _). replace c with (nn ++ [58] ++ tt ++ CRLF) by (apply (app_inv_tail r); rewrite <- !app_assoc; now symmetry).
      apply part_read_field. apply (part_field_disposition E nn qq tt xx); [exact Hm|]. eapply disposition_shrink; eauto.
    + exfalso. inversion Hf as [c' f' Hf' _|c' f' Hf'| |]; subst; [|inversion Hf']. inversion Hf' as [| | | | | | | | | | | | | | | | | | |c' n' v' Hu]; subst. inversion Hu as [n0 c0 v0 Hn0 HK0 Ht0 EQ]; subst.
      apply W. rewrite <- !app_assoc. apply named_without; [now apply ftext_no_colon|now apply part_names_no_colon|]. apply HK0. now apply part_names_all.
Qed.
Lemma same_to_header : forall f f', same_field f f' -> same_header (to_header f) (to_header f').
Proof. intros f f' []; [constructor|now constructor|]. cbn. constructor. now constructor. Qed.
Lemma part_read_forward : forall c h i, part_read E c h -> ends is_wsp i -> exists h', entity_header_parser E (c ++ i) = Ok (i, h') /\ same_header h h'.
Proof.
  assert (G : forall c f name i, mime_read E c f -> In name part_names -> ~ without name (c ++ i) -> ends is_wsp i -> exists h', entity_header_parser E (c ++ i) = Ok (i, h') /\ same_header (to_header f) h').
  { intros c f name i H Hn W Hi. destruct (mime_read_forward E HE HM HD c f i H Hi) as (f' & X & Y). exists (to_header f'). split; [|now apply same_to_header].
    rewrite (named_same E name _ HM Hn W). unfold pmap. now rewrite X. }
  intros c h i H Hi. destruct H as [c h H|n t v Hn Hv HN HC].
  - destruct (part_named _ _ H) as (name & Hin & W). destruct (part_mime _ _ H) as (f & Hf & -> & _). apply (G c f name i); auto. now constructor.
  - change (bs ":") with [58] in *. destruct (known_dec n part_names) as [K|(name & Hin & K)].
    + exists (HOther n v). split; [|constructor]. rewrite <- !app_assoc. rewrite unnamed_part.
      * apply parsers_hit. apply (pmap_ok _ _ (fun '(n, v) => HOther n v) (unknown E) _ i (n, v)). now apply unknown_forward.
      * intros name Hin. apply named_without; [now apply ftext_no_colon|now apply part_names_no_colon|now apply K].
    + apply (G _ (FUnknown n v) name i); auto; [|rewrite <- !app_assoc; now apply with_header]. apply mime_read_unstructured; auto; change (bs ":") with [58].
      * intros f Hf. destruct (mime_field_forward E HE HM HD _ f [] Hf I) as (f' & X & Y).
        assert (W : ~ without name ((n ++ [58] ++ t ++ CRLF) ++ [])) by (rewrite <- !app_assoc; now apply with_header).
        assert (P : entity_header_parser E ((n ++ [58] ++ t ++ CRLF) ++ []) = Ok ([], to_header f')) by (rewrite (named_same E name _ HM Hin W); unfold pmap; now rewrite X).
        destruct (part_read_inv _ _ _ P) as (c & Z & Hc); [intros x y; discriminate|]. apply app_inv_tail in Z. subst c. pose proof (named_kind E name _ _ _ HM Hin W X) as KK.
        inversion Hc as [c' h' Hh|n' t' v' Hn' Hv' HN' HC' EQ1 EQ2]; [exact (HN _ Hh)|]. subst. destruct f'; try (exfalso; exact KK); try discriminate. apply MimeExactFields.same_unknown in Y. subst f.
        inversion Hf as [c' f' Hf' _|c' f' Hf'| |]; subst; [|inversion Hf']. inversion Hf' as [| | | | | | | | | | | | | | | | | | |c' n'' v'' Hu]; subst. inversion Hu as [n0 c0 v0 Hn0 HK0 Ht0 EQ]; subst.
        apply (HK0 name); [now apply part_names_all|]. apply (f_equal (fun x => x ++ [])) in EQ. rewrite <- !app_assoc in EQ. cbn [app] in EQ. apply colon_unique in EQ as [-> _]; [exact K|now apply ftext_no_colon|now apply ftext_no_colon].
      * intros c r X R Y. apply (HC c r X R). eapply cut_mime_part; eauto.
Qed.
Lemma header_sound : forall j r h, entity_header_parser E j = Ok (r, h) -> exists c, j = c ++ r /\ part_header E c h.
Proof. intros j r h H. pose proof (sound_entity_header E j (ok_hash E HE)) as S. rewrite H in S. exact S. Qed.
Lemma part_header_begins : forall c h i, part_header E c h -> starts_header (c ++ i).
Proof.
  intros c h i H. destruct H as [c e H|c t s p H|c v H|c v H|c v H|c n v H]; [hstarts H|hstarts H|hstarts H|hstarts H|hstarts H|].
  inversion H as [n' t v' Hn Ht]; subst. change (bs ":") with [58]. exists n, (t ++ CRLF ++ i). rewrite <- !app_assoc. split; [reflexivity|exact Hn].
Qed.
Lemma part_header_on : forall j r h, entity_header_parser E j = Ok (r, h) -> no_blank j.
Proof. intros j r h H. destruct (header_sound j r h H) as (c & -> & Hc). apply ends_no_blank, starts_header_wsp. eapply part_header_begins; eauto. Qed.
Lemma progress_header : progress (entity_header_parser E).
Proof. intros j r h H. destruct (header_sound j r h H) as (c & -> & Hc). apply part_header_nonempty in Hc. rewrite app_length. destruct c; [congruence|]. cbn. lia. Qed.
Lemma part_read_starts : forall c h i, part_read E c h -> starts_header (c ++ i).
Proof.
  intros c h i H. destruct H as [c h H|n t v Hn _ _ _].
  - destruct (part_read_forward c h [] (part_read_field _ _ _ H) I) as (h' & X & _). rewrite app_nil_r in X. destruct (header_sound _ _ _ X) as (x & -> & Hx). rewrite app_nil_r. eapply part_header_begins; eauto.
  - change (bs ":") with [58]. exists n, (t ++ CRLF ++ i). rewrite <- !app_assoc. split; [reflexivity|exact Hn].
Qed.
Theorem part_header_iff : forall c i, new_line i -> (exists h, entity_header_parser E (c ++ i) = Ok (i, h)) <-> exists h, part_read E c h.
Proof.
  intros c i Hi. apply new_line_ends in Hi. split.
  - intros [h H]. destruct (part_read_inv _ _ _ H (ends_no_blank _ Hi)) as (c' & X & Hc). apply app_inv_tail in X. subst c'. eauto.
  - intros [h H]. destruct (part_read_forward c h i H Hi) as (h' & X & _). eauto.
Qed.

(* ---- a part ---- *)
Lemma after_bare : forall c b, content_after c b -> bare c.
Proof. intros c b [[-> _]| ->]; [now left|right; eauto]. Qed.
Lemma part_back : forall i r, raw_entity E i = Ok r -> exists hs b, part_text_read E i hs b /\ part_of hs b r.
Proof.
  intros i r H. unfold raw_entity in H. destruct (header_part E i) as [[n a]|e|k] eqn:HP; cbn [bind] in H; try discriminate.
  unfold header_part in HP. destruct (many (entity_header_parser E) i) as [[r0 hs]|e|k] eqn:M; cbn [bind] in HP; try discriminate. change header_acc0 with (acc_of_headers []) in HP. rewrite set_headers_spec in HP. cbn [app] in HP.
  apply many_inv in M; [|exact progress_header].
  assert (B : exists b, content_after r0 b /\ n = length b /\ a = acc_of_headers hs).
  { destruct r0 as [|x r0]; [injection HP as <- <-; exists []; split; [now left|auto]|].
    destruct (tag_inv CRLF "TAG ERROR: A MIME entity header part must be followed by a CRLF sequence." (x :: r0)) as [(r' & X & T)|(_ & T)]; rewrite T in HP; cbn [bind] in HP; [|discriminate].
    injection HP as <- <-. exists r'. split; [now right|auto]. }
  destruct B as (b & Hb & -> & ->). pose proof (after_bare _ _ Hb) as Br.
  destruct (steps_texts_of _ _ _ part_read_inv part_header_on _ _ _ M (ends_no_blank _ (bare_wsp _ Br))) as (c & -> & Hc & _).
  assert (X : exists y, c ++ r0 = y ++ b). { destruct Hb as [[-> ->]| ->]; [exists c; reflexivity|exists (c ++ CRLF); now rewrite <- app_assoc]. }
  exists hs, b. split; [exists c, r0; auto|]. destruct X as [y X]. rewrite X in H. unfold usize_sub in H. rewrite app_length in H.
  destruct (Nat.ltb_spec (length y + length b) (length b)); [lia|]. cbn [bind] in H. replace (length y + length b - length b)%nat with (length y) in H by lia. rewrite index_from_app in H. cbn [bind] in H.
  cbn [acc_of_headers h_encoding h_type h_description h_id h_disposition h_additional] in H.
  change (match last_some of_type hs with Some x => x | None => default_content_type end) with (type_of (last_some of_type hs)) in H.
  change (match last_some of_encoding hs with Some e => e | None => SevenBit end) with (encoding_of (last_some of_encoding hs)) in H.
  destruct (type_of (last_some of_type hs)) as [[t s] p] eqn:T. destruct (decode_value E b (encoding_of (last_some of_encoding hs))) as [v|e|k] eqn:V; cbn [bind] in H; try discriminate.
  injection H as <-. apply transfer_iff in V. constructor; cbn; auto.
Qed.
Lemma part_there : forall i hs b v, part_text_read E i hs b -> transfer_decoded (encoding_of (last_some of_encoding hs)) b v ->
  exists hs' r r', raw_entity E i = Ok r' /\ Forall2 same_header hs hs' /\ part_of hs b r /\ part_of hs' b r' /\ same_entity r r' /\ e_value r' = v.
Proof.
  intros i hs b v (c & c' & -> & Hc & Hb) Hv. pose proof (after_bare _ _ Hb) as B.
  destruct (headers_steps _ _ (part_read E) (entity_header_parser E) same_header c') with (c := c) (l := hs) as (hs' & S & F);
    [intros c0 a j Ha Hj; now apply part_read_forward|intros; eapply part_read_starts; eauto|now apply bare_wsp|now apply part_header_none|exact Hc|].
  destruct (part_same hs hs' b v F Hv) as (r & r' & H1 & H2 & H3 & H4 & H5). exists hs', r, r'. split; [|split; [exact F|split; [exact H1|split; [exact H2|split; [exact H3|exact H4]]]]].
  destruct H2 as [P1 P2 P3 P4 P5 P6].
  assert (HP : exists x, c ++ c' = x ++ b /\ header_part E (c ++ c') = Ok (length b, acc_of_headers hs')).
  { unfold header_part. rewrite (many_steps _ _ _ _ _ S). cbn [bind]. change header_acc0 with (acc_of_headers []). rewrite set_headers_spec. cbn [app].
    destruct Hb as [[-> ->]| ->]; [exists c; split; [now rewrite app_nil_r|reflexivity]|]. exists (c ++ CRLF). split; [now rewrite <- app_assoc|].
    change (CRLF ++ b) with (13 :: 10 :: b). cbn [bind]. change (13 :: 10 :: b) with (CRLF ++ b). rewrite tag_app. reflexivity. }
  destruct HP as (x & Ex & HP). unfold raw_entity. rewrite HP. cbn [bind]. rewrite Ex. unfold usize_sub. rewrite app_length.
  destruct (Nat.ltb_spec (length x + length b) (length b)); [lia|]. cbn [bind]. replace (length x + length b - length b)%nat with (length x) by lia. rewrite index_from_app. cbn [bind].
  cbn [acc_of_headers h_encoding h_type h_description h_id h_disposition h_additional].
  change (match last_some of_type hs' with Some x => x | None => default_content_type end) with (type_of (last_some of_type hs')).
  change (match last_some of_encoding hs' with Some e => e | None => SevenBit end) with (encoding_of (last_some of_encoding hs')). rewrite <- P1.
  rewrite (transfer_functional E _ _ _ P6). cbn [bind]. rewrite <- P2, <- P3, <- P4, <- P5. destruct r'. reflexivity.
Qed.
Lemma part_of_unique : forall hs b r r', part_of hs b r -> part_of hs b r' -> r = r'.
Proof.
  intros hs b r r' [A1 A2 A3 A4 A5 A6] [B1 B2 B3 B4 B5 B6]. pose proof (transfer_fun _ _ _ _ A6 B6) as X. rewrite <- B1 in A1. injection A1 as Y1 Y2 Y3. rewrite <- B2 in A2. rewrite <- B3 in A3. rewrite <- B4 in A4. rewrite <- B5 in A5.
  destruct r, r'. cbn in *. now subst.
Qed.
Theorem part_same_read : forall i hs b r, part_text_read E i hs b -> part_of hs b r -> exists r', raw_entity E i = Ok r' /\ same_entity r r'.
Proof.
  intros i hs b r H P. destruct (part_there i hs b (e_value r) H (of_part_value _ _ _ P)) as (hs' & r0 & r' & X & _ & P0 & _ & S & _). exists r'. split; [exact X|]. now rewrite (part_of_unique _ _ _ _ P P0).
Qed.
Theorem part_iff : forall i, (exists r, raw_entity E i = Ok r) <-> exists hs b v, part_text_read E i hs b /\ transfer_decoded (encoding_of (last_some of_encoding hs)) b v.
Proof.
  intros i. split.
  - intros [r H]. destruct (part_back i r H) as (hs & b & H1 & H2). exists hs, b, (e_value r). split; [exact H1|apply H2].
  - intros (hs & b & v & H1 & H2). destruct (part_there i hs b v H1 H2) as (_ & _ & r & X & _). eauto.
Qed.
Theorem part_rejected_iff : forall i, (exists e, raw_entity E i = Err e) <-> ~ exists hs b v, part_text_read E i hs b /\ transfer_decoded (encoding_of (last_some of_encoding hs)) b v.
Proof.
  intros i. rewrite <- part_iff. split; [intros [e X] [r Y]; congruence|]. intros N. destruct (raw_entity E i) as [r|e|k] eqn:R; [exfalso; eauto|eauto|]. exfalso.
  pose proof (sound_raw_entity E i (ok_hash E HE)) as S. rewrite R in S. destruct S as [S _]. congruence.
Qed.
Lemma reads_steps : forall c hs, many_of (part_read E) c hs -> forall j l r, (starts_header j \/ bare j) -> steps (entity_header_parser E) j l r -> exists l', steps (entity_header_parser E) (c ++ j) l' r /\ Forall2 same_header (hs ++ l) l'.
Proof.
  intros c hs H j l r Hj Hs. assert (SR : forall h, same_header h h) by (intros; constructor). induction H as [|c h cs hs H Hcs IH]; [exists l; split; [exact Hs|]; clear - SR; induction l; constructor; auto|].
  destruct IH as (l' & S & F). rewrite <- app_assoc. destruct (part_read_forward c h (cs ++ j) H) as (h' & X & Y).
  { destruct Hcs as [|c2 h2 cs2 hs2 H2 _]; [destruct Hj; [now apply starts_header_wsp|now apply bare_wsp]|]. rewrite <- app_assoc. apply starts_header_wsp. eapply part_read_starts; eauto. }
  exists (h' :: l'). split; [|now constructor]. eapply steps_more; [exact X|eapply progress_header; exact X|exact S].
Qed.
Theorem part_reading_one : forall i hs b hs' b', part_text_read E i hs b -> part_text_read E i hs' b' -> b = b' /\ exists l, Forall2 same_header hs l /\ Forall2 same_header hs' l.
Proof.
  assert (G : forall c c' hs b, many_of (part_read E) c hs -> content_after c' b -> exists l, many (entity_header_parser E) (c ++ c') = Ok (c', l) /\ Forall2 same_header hs l).
  { intros c c' hs b H Hb. destruct (part_header_none E c' (after_bare _ _ Hb)) as [e He]. destruct (reads_steps c hs H c' [] c' (or_intror (after_bare _ _ Hb)) (steps_stop _ _ _ He)) as (l & S & F). rewrite app_nil_r in F.
    exists l. split; [now apply many_steps|exact F]. }
  intros i hs b hs' b' (c & c0 & -> & H & Hb) (c' & c0' & X & H' & Hb'). destruct (G _ _ _ _ H Hb) as (l & M & F). destruct (G _ _ _ _ H' Hb') as (l' & M' & F'). rewrite X, M' in M. injection M as -> ->.
  split; [|eauto]. destruct Hb as [[Y ->]|Y], Hb' as [[Y' ->]|Y']; rewrite Y in Y'; try discriminate; [reflexivity|]. now apply app_inv_head in Y'.
Qed.
Lemma part_cut_forward : forall c r i, part_cut E c r -> ends_crlf_text r -> ends is_wsp i -> exists h, entity_header_parser E (c ++ r ++ i) = Ok (r ++ i, h).
Proof.
  intros c r i H Hr Hi. destruct (part_cut_named _ _ H) as (name & Hin & W). destruct (cut_forward E HE HM HD c r i (part_cut_mime _ _ H) Hr Hi) as (f & X). exists (to_header f).
  rewrite (named_same E name _ HM Hin (W _)). unfold pmap. now rewrite X.
Qed.
Theorem part_cut_rejected : forall c hs c0 w z i, many_of (part_read E) c hs -> part_cut E c0 (w :: z ++ CRLF) -> rfc_WSP w -> new_line i -> exists err, raw_entity E (c ++ c0 ++ (w :: z ++ CRLF) ++ i) = Err err.
Proof.
  intros c hs c0 w z i H H0 Hw Hi. apply new_line_ends in Hi. destruct (part_cut_forward c0 _ i H0) as (h & X); [exists (CRLF ++ w :: z); now rewrite <- app_assoc|exact Hi|].
  assert (Y : exists e, entity_header_parser E ((w :: z ++ CRLF) ++ i) = Err e).
  { pose proof (sound_entity_header E ((w :: z ++ CRLF) ++ i) (ok_hash E HE)) as S. destruct (entity_header_parser E ((w :: z ++ CRLF) ++ i)) as [[r a]|e|k] eqn:P; [exfalso|eauto|destruct S as [S _]; congruence].
    apply part_header_on in P. exact (P w ((z ++ CRLF) ++ i) eq_refl Hw). }
  destruct Y as [e Y]. assert (S : steps (entity_header_parser E) (c0 ++ (w :: z ++ CRLF) ++ i) [h] ((w :: z ++ CRLF) ++ i)) by (eapply steps_more; [exact X|eapply progress_header; exact X|eapply steps_stop; exact Y]).
  assert (B : starts_header (c0 ++ (w :: z ++ CRLF) ++ i)) by (destruct (header_sound _ _ _ X) as (x & Z & Hx); rewrite Z; eapply part_header_begins; eauto).
  destruct (reads_steps c hs H _ _ _ (or_introl B) S) as (l & S' & _). unfold raw_entity, header_part. rewrite (many_steps _ _ _ _ _ S'). cbn [bind app].
  match goal with |- context [tag CRLF ?m ?i] => destruct (tag_inv CRLF m i) as [(r' & Z & _)|(_ & ->)] end; [exfalso; cbn in Z; injection Z as -> _; destruct Hw; discriminate|]. cbn [bind]. eauto.
Qed.
End Parts.

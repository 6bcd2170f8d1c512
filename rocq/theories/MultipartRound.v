(* Splitting a multipart body gives back the parts it was made of. *)
From Coq Require Import Lia ZifyBool ZifyNat ZifyN.
From Verif Require Import Base Utf8 Combinators MimeFields Entity Rfc5322 MultipartSpec Post Steps MultipartProofs EntityProofs.

(* a text that starts with CR and contains no other CR does not overlap itself *)
Lemma no_overlap : forall rest p u q t, ~ In 13%N rest -> ~ occurs (13%N :: rest) p ->
  p ++ (13%N :: rest) ++ u = q ++ (13%N :: rest) ++ t -> length p <= length q.
Proof.
  intros rest p u q t Hr Hp H. destruct (le_lt_dec (length p) (length q)) as [|L]; auto. exfalso.
  destruct (app_eq_app _ _ _ _ H) as (z & [[Hz H2]|[Hz H2]]); [|rewrite Hz, app_length in L; lia].
  assert (z <> []) by (intros ->; rewrite app_nil_r in Hz; subst; lia).
  symmetry in H2. destruct (app_eq_app _ _ _ _ H2) as (w & [[Hw H3]|[Hw H3]]).
  - apply Hp. exists q, w. rewrite Hz, Hw. reflexivity.
  - destruct w as [|c w].
    + apply Hp. exists q, []. rewrite app_nil_r in *. rewrite Hz, <- Hw. reflexivity.
    + assert (c = 13%N) by (destruct z; cbn in H3; [congruence|]; inversion H3; auto). subst c.
      destruct z as [|y z]; [congruence|]. cbn in Hw. injection Hw as _ Hw. apply Hr. rewrite Hw. apply in_or_app. right. now left.
Qed.

Definition mark (b : bytes) : bytes := 13%N :: (10%N :: bs "--" ++ b).
Lemma mark_eq : forall b, CRLF ++ dash_boundary b = mark b.
Proof. reflexivity. Qed.
Lemma delimiter_mark : forall b s, delimiter b ++ s = mark b ++ CRLF ++ s.
Proof. intros. unfold delimiter, mark, dash_boundary. cbn. now rewrite <- app_assoc. Qed.
Lemma closing_mark : forall b s, closing_delimiter b ++ s = mark b ++ bs "--" ++ CRLF ++ s.
Proof. intros. unfold closing_delimiter, mark, dash_boundary. cbn. now rewrite <- app_assoc. Qed.
Lemma mark_rest : forall b, ~ In 13%N b -> ~ In 13%N (10%N :: bs "--" ++ b).
Proof. intros b H. cbn. intuition discriminate. Qed.
Lemma clean_no : forall b p, clean b p -> ~ occurs (mark b) p.
Proof. intros b p H (x & y & ->). apply H. exists (CRLF ++ x), y. rewrite mark_eq. now rewrite <- app_assoc. Qed.

(* a clean text followed by a delimiter does not start with the short delimiter *)
Lemma clean_start : forall b p s, ~ In 13%N b -> clean b p -> starts_with (p ++ CRLF ++ s) (dash_boundary b ++ CRLF) = false.
Proof.
  intros b p s Hb Hp. destruct (starts_with _ _) eqn:S; auto. exfalso. apply starts_with_spec in S as [r H]. rewrite <- app_assoc in H.
  destruct (app_eq_app _ _ _ _ H) as (z & [[Hz _]|[Hz H2]]).
  - apply Hp. exists [], z. rewrite Hz. cbn [app]. now rewrite !app_assoc.
  - destruct z as [|c z].
    + apply Hp. exists [], []. rewrite !app_nil_r in *. cbn [app]. now rewrite <- Hz.
    + cbn in H2. injection H2 as <- _. assert (I : In 13%N (dash_boundary b)) by (rewrite Hz; apply in_or_app; right; now left).
      unfold dash_boundary in I. cbn in I. intuition discriminate.
Qed.
Lemma first_mark : forall b p s x, ~ In 13%N b -> clean b p -> (forall t, x ++ t = mark b ++ skipn (length (mark b)) (x ++ t)) ->
  find_sub x (p ++ x ++ s) = Some (length p).
Proof.
  intros b p s x Hb Hp Hx. apply find_sub_first. intros q t H. rewrite (Hx s), (Hx t) in H.
  eapply no_overlap; [apply (mark_rest b Hb)|now apply clean_no|exact H].
Qed.
Lemma skip_mark : forall b s, skipn (length (mark b)) (mark b ++ s) = s.
Proof. intros. apply skipn_app_exact. Qed.

Lemma split_clean : forall b p s, ~ In 13%N b -> clean b p -> before_boundary b (p ++ delimiter b ++ s) = Ok (s, p).
Proof.
  intros b p s Hb Hp. destruct (before_boundary_spec b (p ++ delimiter b ++ s)) as [(r & H & _)|[(_ & q & r & H & F & ->)|(_ & N & _)]].
  - exfalso. assert (S : starts_with (p ++ delimiter b ++ s) (dash_boundary b ++ CRLF) = true).
    { rewrite H, app_assoc. apply starts_with_app. }
    unfold delimiter in S. rewrite <- !app_assoc in S. rewrite clean_start in S; [discriminate|auto|auto].
  - assert (L : length q = length p).
    { assert (X : Some (length q) = Some (length p)); [|now inversion X]. rewrite <- F. apply (first_mark b); auto.
      intros t. rewrite delimiter_mark. now rewrite skip_mark. }
    symmetry in L. apply app_inj_len in H as [-> H]; auto. apply app_inv_head in H. now subst.
  - exfalso. apply N. now exists p, s.
Qed.
Lemma split_end : forall b p epi, ~ In 13%N b -> clean b p -> ~ occurs (delimiter b) (CRLF ++ epi) ->
  exists e, before_boundary b (p ++ closing_delimiter b ++ epi) = Err e.
Proof.
  intros b p epi Hb Hp He. destruct (before_boundary_spec b (p ++ closing_delimiter b ++ epi)) as [(r & H & _)|[(_ & q & r & H & _)|(_ & _ & ?)]]; auto; exfalso.
  - assert (S : starts_with (p ++ closing_delimiter b ++ epi) (dash_boundary b ++ CRLF) = true).
    { rewrite H, app_assoc. apply starts_with_app. }
    unfold closing_delimiter in S. rewrite <- !app_assoc in S. rewrite clean_start in S; [discriminate|auto|auto].
  - rewrite closing_mark, delimiter_mark in H.
    pose proof (no_overlap _ _ _ _ _ (mark_rest b Hb) (clean_no _ _ Hp) H) as L.
    destruct (app_eq_app _ _ _ _ H) as (z & [[Hz H2]|[Hz H2]]).
    + assert (z = []) as -> by (destruct z; auto; rewrite Hz, app_length in L; cbn in L; lia). cbn in H2.
      injection H2 as H2. apply app_inv_head in H2. discriminate.
    + destruct (app_eq_app _ _ _ _ H2) as (w & [[Hw H3]|[Hw H3]]).
      * destruct z as [|c z].
        -- cbn in H2. injection H2 as H2. apply app_inv_head in H2. discriminate.
        -- destruct w as [|d w].
           ++ cbn in H3. discriminate.
           ++ assert (d = 13%N) as -> by (unfold mark in H3; cbn in H3; inversion H3; auto).
              unfold mark in Hw. cbn [app] in Hw. injection Hw as _ Hw. apply (mark_rest b Hb). change (In 13 (10 :: 45 :: 45 :: b))%N. rewrite Hw. apply in_or_app. right. now left.
      * destruct w as [|c1 [|c2 w]].
        -- unfold mark in H3. cbn in H3. discriminate.
        -- cbn in H3. injection H3 as -> H3. unfold mark in H3. cbn in H3. discriminate.
        -- change (45 :: 45 :: (CRLF ++ epi) = c1 :: c2 :: (w ++ mark b ++ CRLF ++ r))%N in H3. injection H3 as _ _ H3. apply He. exists w, r. rewrite delimiter_mark. exact H3.
Qed.
Lemma close_clean : forall b p s, ~ In 13%N b -> clean b p -> before_closing_boundary b (p ++ closing_delimiter b ++ s) = Ok (s, p).
Proof.
  intros b p s Hb Hp. destruct (before_closing_spec b (p ++ closing_delimiter b ++ s)) as [(q & r & H & F & ->)|(N & _)].
  - assert (L : length q = length p).
    { assert (X : Some (length q) = Some (length p)); [|now inversion X]. rewrite <- F. apply (first_mark b); auto.
      intros t. rewrite closing_mark. now rewrite skip_mark. }
    symmetry in L. apply app_inj_len in H as [-> H]; auto. apply app_inv_head in H. now subst.
  - exfalso. apply N. now exists p, s.
Qed.

Lemma parts_cons : forall b p ps s, parts_text b (p :: ps) ++ s = delimiter b ++ p ++ parts_text b ps ++ s.
Proof. intros. unfold parts_text. cbn [map concat]. now rewrite <- !app_assoc. Qed.
(* the loop: everything but the last part *)
Lemma split_steps : forall b epi, ~ In 13%N b -> ~ occurs (delimiter b) (CRLF ++ epi) -> forall parts p, Forall (clean b) (p :: parts) ->
  exists l q, p :: parts = l ++ [q] /\
  steps (before_boundary b) (p ++ parts_text b parts ++ closing_delimiter b ++ epi) l (q ++ closing_delimiter b ++ epi).
Proof.
  intros b epi Hb He parts. induction parts as [|p' parts IH]; intros p H; inversion H as [|? ? Hp Hps]; subst.
  - exists [], p. split; auto. cbn [parts_text map concat app]. destruct (split_end b p epi Hb Hp He) as [e X]. eapply steps_stop; eauto.
  - destruct (IH p' Hps) as (l & q & L & S). exists (p :: l), q. split; [rewrite L; reflexivity|].
    rewrite parts_cons. eapply steps_more; [apply split_clean; auto| |exact S].
    rewrite (app_length p), (app_length (delimiter b)), delimiter_length. lia.
Qed.
Theorem multipart_back : forall E (b : bytes) parts text (params : list (bytes * bytes)), ~ In 13%N b -> Forall (clean b) parts -> multipart_text b parts text ->
  map_get params (bs "boundary") = Some b -> parse_multipart E text params = raw_entities E parts.
Proof.
  intros E b parts text params Hb Hc Ht Hp. unfold parse_multipart. rewrite Hp. cbn [ok_or bind]. destruct Ht as [pre epi Hpre He|p rest epi -> He].
  - destruct (split_steps b epi Hb He parts pre ltac:(now constructor)) as (l & q & L & S). rewrite (many_steps _ _ _ _ _ S). cbn [bind].
    assert (Hq : clean b q). { assert (F : Forall (clean b) (pre :: parts)) by now constructor. rewrite L in F. apply Forall_app in F as [_ F]. now inversion F. }
    rewrite close_clean by auto. cbn [bind]. match goal with |- context [vec_remove ?x 0] => change x with (l ++ [q]) end.
    rewrite (vec_remove_0 _ _ _ _ (eq_sym L)). reflexivity.
  - destruct (split_steps b epi Hb He rest p Hc) as (l & q & L & S).
    assert (S' : steps (before_boundary b) (dash_boundary b ++ CRLF ++ p ++ parts_text b rest ++ closing_delimiter b ++ epi) ([] :: l) (q ++ closing_delimiter b ++ epi)).
    { eapply steps_more; [|..|exact S].
      - destruct (before_boundary_spec b (dash_boundary b ++ CRLF ++ p ++ parts_text b rest ++ closing_delimiter b ++ epi)) as [(r & H & ->)|[(N & _)|(N & _)]].
        + apply app_inv_head, app_inv_head in H. now subst.
        + rewrite (app_assoc (dash_boundary b) CRLF), starts_with_app in N. discriminate.
        + rewrite (app_assoc (dash_boundary b) CRLF), starts_with_app in N. discriminate.
      - rewrite (app_length (dash_boundary b)), (app_length CRLF). cbn. lia. }
    rewrite (many_steps _ _ _ _ _ S'). cbn [bind].
    assert (Hq : clean b q). { rewrite L in Hc. apply Forall_app in Hc as [_ F]. now inversion F. }
    rewrite close_clean by auto. cbn [bind]. match goal with |- context [vec_remove ?x 0] => change x with ([] :: (l ++ [q])) end.
    cbn. now rewrite <- L.
Qed.
Lemma raw_entities_ok : forall E ps es, raw_entities E ps = Ok es <-> Forall2 (fun p e => raw_entity E p = Ok e) ps es.
Proof.
  intros E ps. induction ps as [|p ps IH]; intros es; cbn [raw_entities].
  - split; [now inversion 1; subst|now inversion 1].
  - split.
    + intros H. destruct (raw_entity E p) as [e| |] eqn:R; try discriminate. cbn [bind] in H. destruct (raw_entities E ps) as [l| |]; try discriminate.
      cbn [bind] in H. inversion H; subst. constructor; auto. now apply IH.
    + intros H. inversion H; subst. rewrite H2. cbn [bind]. apply IH in H4. now rewrite H4.
Qed.
Theorem multipart_inverts : forall E (b : bytes) parts text r es, ~ In 13%N b -> Forall (clean b) parts -> multipart_text b parts text ->
  e_mime_type r = CMultipart -> map_get (e_parameters r) (bs "boundary") = Some b -> e_value r = text ->
  entity E r = Ok (EMultipart (e_subtype r) es) <-> Forall2 (fun p e => raw_entity E p = Ok e) parts es.
Proof.
  intros E b parts text r es Hb Hc Ht Hm Hp Hv. rewrite <- raw_entities_ok. unfold entity. rewrite Hm, Hv, (multipart_back E b parts) by auto.
  destruct (raw_entities E parts) as [l| |]; cbn [bind]; split; congruence.
Qed.
Lemma epilogue_ignored : forall E (b : bytes) parts text text' (params : list (bytes * bytes)), ~ In 13%N b -> Forall (clean b) parts ->
  multipart_text b parts text -> multipart_text b parts text' -> map_get params (bs "boundary") = Some b ->
  parse_multipart E text params = parse_multipart E text' params.
Proof. intros. rewrite !(multipart_back E b parts) by auto. reflexivity. Qed.
(* deciding occurrence, for examples *)
Lemma not_occurs : forall x l, forallb (fun k => negb (starts_with (skipn k l) x)) (seq 0 (S (length l))) = true -> ~ occurs x l.
Proof.
  intros x l H (p & s & ->). rewrite forallb_forall in H.
  assert (I : In (length p) (seq 0 (S (length (p ++ x ++ s))))) by (apply in_seq; rewrite app_length; lia).
  specialize (H _ I). rewrite skipn_app_exact, starts_with_app in H. discriminate.
Qed.

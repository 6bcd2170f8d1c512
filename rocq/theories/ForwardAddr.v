(* Completeness, part 3: identifiers, encoded words, phrases, mailboxes, groups and lists. *)
From Coq Require Import Lia ZifyBool ZifyNat ZifyN.
From Verif Require Import Base Utf8 CharSets Combinators Whitespace QuotedString Base64 QuotedPrintable Charset EncodedWord Common Address
  Fields Rfc5322 Rfc2047 CodecSpec RfcFields Complete Post CodecArith Base64Proofs QPProofs PercentProofs SoundBase SoundTime SoundAddr Steps Forward ForwardText.
Local Open Scope N_scope.

Lemma skip_optional : forall i r, skip_cfws i = Ok r -> exists o, optional cfws i = Ok (r, o).
Proof. intros i r H. unfold skip_cfws in H. unfold optional. destruct (cfws i) as [[x y]| |]; cbn [attempt] in *; inversion H; subst; eauto. Qed.
Lemma skip_before : forall l d t, rfc_oCFWS l -> visible d -> d <> 40 -> skip_cfws (l ++ d :: t) = Ok (d :: t).
Proof. intros l d t Hl H1 H2. apply skip_cfws_forward; auto. apply starts_visible_follows. now apply starts_visible_cons. Qed.
Lemma ocfws_before : forall l d t, rfc_oCFWS l -> visible d -> d <> 40 -> exists o, optional cfws (l ++ d :: t) = Ok (d :: t, o).
Proof. intros. apply skip_optional. now apply skip_before. Qed.
Ltac vis := solve [unfold visible; lia | discriminate | lia].

(* ---- encoded words ---- *)
Lemma encoded_word_forward : forall E c v i, rfc_encoded_word (textcode E) c v -> encoded_word E (c ++ i) = Ok (i, v).
Proof.
  intros E c v i [charset lang e text raw v' Hcs Hl Ht Hd Hv]. unfold encoded_word. rewrite <- !app_assoc. rewrite tag_app. cbn [bind].
  assert (CH : ew_charset (charset ++ lang ++ bs "?" ++ e ++ bs "?" ++ text ++ bs "?=" ++ i) = Ok (lang ++ bs "?" ++ e ++ bs "?" ++ text ++ bs "?=" ++ i, map fold_case charset)).
  { unfold ew_charset. rewrite (take_while1_app _ ew_charset_char charset _ ew_charset_spec).
    - cbn [bind]. now rewrite lowercase_fold.
    - intros x Hx. apply ew_charset_spec in Hx as [[Hx _] _]. unfold ascii_byte. lia.
    - exact Hcs.
    - destruct Hl; reflexivity. }
  rewrite CH. cbn [bind].
  assert (LA : exists o, optional (pair_p (tag (bs "*") "TAG ERROR: In an encoded word with encoding, a charset must be followed by a `*`.") ew_encoding)
      (lang ++ bs "?" ++ e ++ bs "?" ++ text ++ bs "?=" ++ i) = Ok (bs "?" ++ e ++ bs "?" ++ text ++ bs "?=" ++ i, o)).
  { unfold optional, pair_p. destruct Hl as [|l Hl].
    - rewrite tag_err by reflexivity. cbn. eauto.
    - rewrite <- !app_assoc. rewrite tag_app. cbn [bind]. unfold ew_encoding. rewrite (take_while1_app _ ew_token_char l _ ew_token_spec).
      + cbn. eauto.
      + intros x Hx. apply ew_token_spec in Hx as [Hx _]. unfold ascii_byte. lia.
      + exact Hl.
      + reflexivity. }
  destruct LA as [o ->]. cbn [bind]. rewrite tag_app. cbn [bind].
  assert (He : chars1 ew_token_char e /\ (map fold_case e = bs "b" \/ map fold_case e = bs "q")).
  { assert (K : forall x, map fold_case e = [x] -> x = 98 \/ x = 113 -> chars1 ew_token_char e).
    { intros x K Hx. destruct e as [|y [|z e]]; try discriminate. injection K as K. split; [discriminate|]. constructor; [|constructor].
      unfold fold_case in K. assert (Y : y = 98 \/ y = 66 \/ y = 113 \/ y = 81) by (destruct ((65 <=? y) && (y <=? 90)) eqn:?; lia).
      apply ew_token_spec. destruct Y as [->|[->|[->| ->]]]; reflexivity. }
    destruct Hd as [e t r Hs Hb|e t Hs]; unfold same_nocase in Hs; cbn in Hs.
    - split; [eapply K; eauto|now left].
    - split; [eapply K; eauto|now right]. }
  destruct He as [He1 He2].
  assert (EN : ew_encoding (e ++ bs "?" ++ text ++ bs "?=" ++ i) = Ok (bs "?" ++ text ++ bs "?=" ++ i, map fold_case e)).
  { unfold ew_encoding. rewrite (take_while1_app _ ew_token_char e _ ew_token_spec).
    - cbn [bind]. now rewrite lowercase_fold.
    - intros x Hx. apply ew_token_spec in Hx as [Hx _]. unfold ascii_byte. lia.
    - exact He1.
    - reflexivity. }
  rewrite EN. cbn [bind]. rewrite tag_app. cbn [bind].
  assert (TX : encoded_text (text ++ bs "?=" ++ i) = Ok (bs "?=" ++ i, text)).
  { unfold encoded_text. apply (take_while1_app _ ew_text_char text _ ew_text_spec).
    - intros x Hx. apply ew_text_spec in Hx as [Hx _]. unfold ascii_byte. lia.
    - exact Ht.
    - reflexivity. }
  rewrite TX. cbn [bind]. rewrite tag_app. cbn [bind].
  assert (DE : (if bytes_eqb (map fold_case e) (bs "b") then decode_base64 E text
    else if bytes_eqb (map fold_case e) (bs "q") then decode_header_qp E text else Err (Unknown "Unknown encoding")) = Ok raw).
  { destruct Hd as [e t r Hs Hb|e t Hs]; unfold same_nocase in Hs; change (map fold_case (bs "b")) with (bs "b") in *; change (map fold_case (bs "q")) with (bs "q") in *; rewrite Hs.
    - cbn [bytes_eqb]. pose proof (decode_base64_spec E t) as D. rewrite Hb in D. exact D.
    - apply decode_header_qp_spec. }
  rewrite DE. cbn [bind].
  destruct Hv; cbn; unfold str_checked; rewrite ?H; reflexivity.
Qed.

(* ---- message identifiers ---- *)
Lemma no_fold_litteral_forward : forall d i, chars rfc_dtext d -> no_fold_litteral ([91] ++ d ++ [93] ++ i) = Ok (i, d).
Proof.
  intros d i Hd. unfold no_fold_litteral. change (bs "[") with [91]. rewrite tag_app. cbn [bind].
  rewrite (take_while_app is_dtext rfc_dtext d ([93] ++ i) dtext_spec dtext_ascii Hd) by reflexivity. cbn [bind].
  change (bs "]") with [93]. rewrite tag_app. reflexivity.
Qed.
Definition msg_id_core (compat : bool) (c : bytes) (v : bytes * bytes) : Prop :=
  exists a d, c = [60] ++ a ++ [64] ++ d ++ [62] /\ rfc_dot_atom_text compat a /\ rfc_id_right compat d (snd v) /\ fst v = a.
Lemma message_id_core : forall E l c v i j, rfc_oCFWS l -> msg_id_core (f_compatibility_fixes E) c v -> skip_cfws i = Ok j ->
  message_id E (l ++ c ++ i) = Ok (j, v).
Proof.
  intros E l c [a' b] i j Hl (a & d & -> & Ha & Hd & <-) Hi. cbn [fst snd] in *. unfold message_id. rewrite <- !app_assoc.
  destruct (ocfws_before l 60 (a' ++ [64] ++ d ++ [62] ++ i)) as [o Ho]; [auto|vis|vis|].
  change (60 :: a' ++ [64] ++ d ++ [62] ++ i) with ([60] ++ a' ++ [64] ++ d ++ [62] ++ i) in Ho. rewrite Ho. cbn [bind].
  change (bs "<") with [60]. rewrite tag_app. cbn [bind]. rewrite (dot_atom_text_forward E a') by (auto; reflexivity). cbn [bind].
  change (bs "@") with [64]. rewrite tag_app. cbn [bind match_parsers].
  assert (R : attempt (dot_atom_text E (d ++ [62] ++ i)) (fun ra => Ok ra) (attempt (no_fold_litteral (d ++ [62] ++ i)) (fun ra => Ok ra) (Err (Unknown "No match arm is matching the data")))
     = Ok ([62] ++ i, b)).
  { destruct Hd as [d Hd|d Hd].
    - rewrite (dot_atom_text_forward E d) by (auto; reflexivity). reflexivity.
    - rewrite <- !app_assoc. unfold dot_atom_text. destruct (take_while1_err is_atext ([91] ++ d ++ [93] ++ [62] ++ i)) as [e ->]; [reflexivity|]. cbn [bind attempt].
      rewrite (no_fold_litteral_forward d) by auto. reflexivity. }
  rewrite R. cbn [bind]. change (bs ">") with [62]. rewrite tag_app. cbn [bind]. destruct (skip_optional _ _ Hi) as [o' ->]. reflexivity.
Qed.
Lemma msg_id_split : forall b c v, rfc_msg_id b c v -> exists l x r, c = l ++ x ++ r /\ rfc_oCFWS l /\ msg_id_core b x v /\ rfc_oCFWS r.
Proof.
  intros b c v [l a d y r Hl Ha Hd Hr]. exists l, ([60] ++ a ++ [64] ++ d ++ [62]), r. rewrite <- !app_assoc.
  split; [reflexivity|]. split; [auto|]. split; [|auto]. exists a, d. auto.
Qed.
Lemma msg_id_core_chars : forall b c v, msg_id_core b c v -> exists x, c = (x ++ [62]) /\ exists y, c = 60 :: y.
Proof. intros b c v (a & d & -> & _). exists ([60] ++ a ++ [64] ++ d). rewrite <- !app_assoc. split; [reflexivity|eexists; reflexivity]. Qed.
Lemma msg_id_follows : forall b l x r v i, msg_id_core b x v -> follows (l ++ x ++ r) i -> follows r i.
Proof.
  intros b l x r v i Hx Hf. apply msg_id_core_chars in Hx as (y & -> & _).
  replace (l ++ (y ++ [62]) ++ r) with ((l ++ y) ++ [62] ++ r) in Hf by (now rewrite <- !app_assoc).
  now apply follows_after1 in Hf; [|unfold visible; lia].
Qed.
Lemma message_id_forward : forall E c v i, rfc_msg_id (f_compatibility_fixes E) c v -> follows c i -> message_id E (c ++ i) = Ok (i, v).
Proof.
  intros E c v i H Hf. apply msg_id_split in H as (l & x & r & -> & Hl & Hx & Hr). apply (msg_id_follows _ _ _ _ _ _ Hx) in Hf.
  rewrite <- !app_assoc. apply message_id_core; auto. now apply skip_cfws_forward.
Qed.
Lemma message_id_none : forall E l i, rfc_oCFWS l -> follows l i -> ends (fun c => 60 =? c) i -> exists e, message_id E (l ++ i) = Err e.
Proof.
  intros E l i Hl Hf Hi. unfold message_id. destruct (ocfws_forward l i Hl Hf) as [o ->]. cbn [bind]. change (bs "<") with [60].
  rewrite tag_head_err by auto. cbn. eauto.
Qed.
(* several identifiers: white space at the end of one and the start of the next *)
Inductive tail_ids (compat : bool) : bytes -> list (bytes * bytes) -> Prop :=
| tail_ids_one : forall x v r, msg_id_core compat x v -> rfc_oCFWS r -> tail_ids compat (x ++ r) [v]
| tail_ids_more : forall x v r l c ls, msg_id_core compat x v -> rfc_oCFWS r -> rfc_oCFWS l -> tail_ids compat c ls ->
    tail_ids compat (x ++ r ++ l ++ c) (v :: ls).
Lemma msg_ids_tail : forall b c ls, many_of (rfc_msg_id b) c ls -> ls <> [] -> exists l c', c = l ++ c' /\ rfc_oCFWS l /\ tail_ids b c' ls.
Proof.
  intros b c ls H. induction H as [|c v cs ls Hc Hcs IH]; intros Hn; [congruence|].
  apply msg_id_split in Hc as (l & x & r & -> & Hl & Hx & Hr). destruct Hcs as [|c2 v2 cs ls H2 Hcs].
  - exists l, (x ++ r). rewrite app_nil_r. split; [reflexivity|]. split; auto. now constructor.
  - destruct IH as (l2 & c' & E & Hl2 & Ht); [discriminate|]. rewrite E. exists l, (x ++ r ++ l2 ++ c'). rewrite <- !app_assoc. split; [reflexivity|]. split; auto.
    now constructor.
Qed.
Lemma msg_id_core_starts : forall b x v r, msg_id_core b x v -> starts_visible (x ++ r).
Proof. intros b x v r H. apply msg_id_core_chars in H as (_ & _ & y & ->). apply starts_visible_cons; vis. Qed.
Lemma tail_ids_starts : forall b c ls r, tail_ids b c ls -> starts_visible (c ++ r).
Proof. intros b c ls r [x v r' H Hr|x v r' l c' ls' H Hr Hl Hc]; rewrite <- ?app_assoc; eapply msg_id_core_starts; eauto. Qed.
Lemma app_shorter : forall (c l r : bytes) x y, c = x :: y -> (length r <= length l)%nat -> (length r < length (c ++ l))%nat.
Proof. intros c l r x y -> H. rewrite app_length. cbn [length]. lia. Qed.
(* what is left after white space is not longer *)
Lemma two_cfws_short : forall c1 c2 r, rfc_oCFWS c1 -> rfc_oCFWS c2 -> starts_visible r ->
  exists c', rfc_oCFWS c' /\ skip_cfws (c1 ++ c2 ++ r) = Ok (c' ++ r) /\ (length (c' ++ r) <= length (c1 ++ c2 ++ r))%nat.
Proof.
  intros c1 c2 r H1 H2 Hr. destruct (two_cfws c1 c2 r H1 H2 Hr) as (c' & Hc & Hs). exists c'. split; auto. split; auto.
  pose proof (sound_skip_cfws never (c1 ++ c2 ++ r)) as P. rewrite Hs in P. cbn in P. destruct P as (x & E & _). rewrite E. rewrite (app_length x). lia.
Qed.
Lemma tail_ids_steps : forall E c ls, tail_ids (f_compatibility_fixes E) c ls -> forall i, follows c i -> ends (fun c => 60 =? c) i ->
  forall l1, rfc_oCFWS l1 -> steps (message_id E) (l1 ++ c ++ i) ls i.
Proof.
  intros E c ls H. induction H as [x v r Hx Hr|x v r l c ls Hx Hr Hl Hc IH]; intros i Hf Hi l1 H1; destruct (msg_id_core_chars _ _ _ Hx) as (_ & _ & y & Ey).
  - apply (msg_id_follows _ [] _ _ _ _ Hx) in Hf. rewrite <- !app_assoc. eapply steps_more.
    + apply message_id_core; eauto. now apply skip_cfws_forward.
    + rewrite Ey, !app_length. cbn [length]. lia.
    + destruct (message_id_none E [] i) as [e He]; [constructor|apply follows_empty; apply Hf|auto|]. eapply steps_stop; eauto.
  - assert (Hf' : follows c i).
    { destruct Hf as [F1 F2]. split; auto. destruct F2 as [F2|F2]; auto. right.
      destruct Hc as [x2 v2 r2 Hx2 Hr2|x2 v2 r2 l2 c2 ls2 Hx2 Hr2 Hl2 Hc2]; apply msg_id_core_chars in Hx2 as (z & -> & _).
      - replace (x ++ r ++ l ++ (z ++ [62]) ++ r2) with (((x ++ r ++ l ++ z) ++ [62]) ++ r2) in F2 by (now rewrite <- !app_assoc).
        apply settled_app in F2; [|reflexivity|discriminate]. apply settled_app; [reflexivity|discriminate|exact F2].
      - replace (x ++ r ++ l ++ (z ++ [62]) ++ r2 ++ l2 ++ c2) with (((x ++ r ++ l ++ z) ++ [62]) ++ r2 ++ l2 ++ c2) in F2 by (now rewrite <- !app_assoc).
        apply settled_app in F2; [|reflexivity|discriminate]. apply settled_app; [reflexivity|discriminate|exact F2]. }
    rewrite <- !app_assoc. destruct (two_cfws_short r l (c ++ i)) as (l' & Hl' & Hs & Hlen); auto; [eapply tail_ids_starts; eauto|].
    eapply steps_more; [apply message_id_core; eauto| |apply IH; auto].
    rewrite (app_length l1). pose proof (app_shorter x _ _ _ _ Ey Hlen). lia.
Qed.
Lemma message_ids_forward : forall E c ls i, rfc_msg_ids (f_compatibility_fixes E) c ls -> follows c i -> ends (fun c => 60 =? c) i ->
  many1 (message_id E) (c ++ i) = Ok (i, ls).
Proof.
  intros E c ls i [Hn H] Hf Hi. destruct (msg_ids_tail _ _ _ H Hn) as (l & c' & -> & Hl & Ht). rewrite <- app_assoc. apply many1_steps; auto.
  eapply tail_ids_steps; eauto. destruct Hf as [F1 F2]. split; auto. destruct F2 as [F2|F2]; auto. right.
  destruct Ht as [x2 v2 r2 Hx2 Hr2|x2 v2 r2 l2 c2 ls2 Hx2 Hr2 Hl2 Hc2]; apply msg_id_core_chars in Hx2 as (z & -> & _); rewrite !app_assoc in F2.
  - rewrite <- (app_assoc l z) in F2. rewrite (app_assoc l z) in F2. apply settled_app in F2; [|reflexivity|discriminate]. apply settled_app; [reflexivity|discriminate|exact F2].
  - rewrite <- !app_assoc in F2. rewrite (app_assoc l z) in F2. rewrite (app_assoc (l ++ z)) in F2. apply settled_app in F2; [|reflexivity|discriminate]. apply settled_app; [reflexivity|discriminate|exact F2].
Qed.

(* ---- domains and addr-specs ---- *)
Lemma dtext_inner : forall c, rfc_dtext c -> is_wsp c || (c =? 13) = false.
Proof. intros c H. destruct (is_wsp c) eqn:X; [apply wsp_spec in X; chars_lia|]. chars_lia. Qed.
Definition dnone : bytes -> bytes -> Prop := fun _ _ => False.
Lemma druns_cons : forall w v c t l, rfc_oFWS w v -> rfc_dtext c -> runs is_dtext rfc_dtext dnone t l ->
  exists l2, runs is_dtext rfc_dtext dnone (w ++ [c] ++ t) l2 /\ concat (map snd l2) = [c] ++ concat (map snd l).
Proof.
  intros w v c t l Hw Hc H. assert (C1 : chars1 rfc_dtext [c]) by (split; [discriminate|constructor; [exact Hc|constructor]]).
  destruct H as [|w' v' a t' l' Hw' Ha Ht' He|w' v' q' y' t' l' Hw' Hy' Ht']; [| |destruct Hy'].
  - exists [(v, [c])]. split; [|reflexivity]. apply runs_run; auto; [constructor|exact I].
  - destruct Hw' as [|w' v' Hw'].
    + exists ((v, [c] ++ a) :: l'). split; [|reflexivity]. change ([c] ++ [] ++ a ++ t') with (([c] ++ a) ++ t'). apply runs_run; auto.
      destruct Ha. split; [discriminate|now constructor].
    + exists ((v, [c]) :: (v', a) :: l'). split; [|reflexivity]. apply runs_run; auto; [apply runs_run; auto; now constructor|]. eapply FWS_ends; eauto; reflexivity.
Qed.
Lemma dbody_runs : forall b v, rfc_dbody b v -> exists b' l w y, b = b' ++ w /\ runs is_dtext rfc_dtext dnone b' l /\ rfc_oFWS w y /\ v = concat (map snd l).
Proof.
  intros b v H. induction H as [w v Hw|w v c b x Hw Hc Hb (b' & l & w' & y' & -> & Hr & Hw' & ->)].
  - exists [], [], w, v. split; [reflexivity|]. split; [constructor|auto].
  - destruct (druns_cons w v c b' l Hw Hc Hr) as (l2 & Hl & Hv). exists (w ++ [c] ++ b'), l2, w', y'. rewrite <- !app_assoc. auto.
Qed.
Lemma domain_literal_core : forall l b v i j, rfc_oCFWS l -> rfc_dbody b v -> skip_cfws i = Ok j -> domain_literal (l ++ [91] ++ b ++ [93] ++ i) = Ok (j, v).
Proof.
  intros l b v' i j Hl Hb Hi. unfold domain_literal.
  destruct (ocfws_before l 91 (b ++ [93] ++ i)) as [o Ho]; [auto|vis|vis|].
  change (91 :: b ++ [93] ++ i) with ([91] ++ b ++ [93] ++ i) in Ho. rewrite Ho. cbn [bind]. change (bs "[") with [91]. rewrite tag_app. cbn [bind].
  apply dbody_runs in Hb as (b' & ls & w & y & -> & Hruns & Hw & ->). rewrite <- !app_assoc.
  destruct (runs_steps (A := bytes) is_dtext rfc_dtext dnone) with (R := fun x v a : bytes => x = a) (p := domain_literal_step) (r := w ++ [93] ++ i) (c := b') (l := ls)
    as (l2 & Hs & Hv); [intros q y0 []|now repeat split| |intros; contradiction| | |exact Hruns|].
  { intros w0 v0 a t H0 Ha Ht. eexists. split; [|reflexivity]. unfold domain_literal_step.
    rewrite (ofws_inner w0 v0); [|auto|eapply chars1_ends; [exact dtext_inner|exact Ha]]. cbn [bind].
    apply (take_while1_app is_dtext rfc_dtext a t dtext_spec dtext_ascii Ha Ht). }
  { unfold domain_literal_step. rewrite (ofws_inner w y); [|auto|reflexivity]. cbn [bind]. eexists. reflexivity. }
  { eapply oFWS_ends; eauto; reflexivity. }
  rewrite (collect_many_steps _ _ _ _ Hs). cbn [bind]. rewrite (ofws_inner w y); [|auto|reflexivity]. cbn [bind].
  change (bs "]") with [93]. rewrite tag_app. cbn [bind]. destruct (skip_optional _ _ Hi) as [o' ->]. cbn [bind].
  assert (V : concat l2 = concat (map snd ls)) by (clear - Hv; induction Hv as [|x va l2 l -> Hv IH]; cbn; [auto|now rewrite IH]).
  now rewrite V.
Qed.
Lemma domain_literal_forward : forall c v i, rfc_domain_literal c v -> follows c i -> domain_literal (c ++ i) = Ok (i, v).
Proof.
  intros c v i [l b v' r Hl Hb Hr] Hf. replace (l ++ [91] ++ b ++ [93] ++ r) with ((l ++ [91] ++ b) ++ [93] ++ r) in Hf by (now rewrite <- !app_assoc).
  apply follows_after1 in Hf; [|unfold visible; lia]. rewrite <- !app_assoc. apply domain_literal_core; auto. now apply skip_cfws_forward.
Qed.
Lemma domain_forward : forall E c v i, rfc_domain (f_compatibility_fixes E) c v -> follows c i -> plain_end i -> domain E (c ++ i) = Ok (i, v).
Proof.
  intros E c v i [c' v' H|c' v' H] Hf Hi; unfold domain; cbn [match_parsers].
  - rewrite (dot_atom_forward E c' v') by auto. reflexivity.
  - pose proof (domain_literal_forward c' v' i H Hf) as D. destruct H as [l b v'' r Hl Hb Hr]. rewrite <- !app_assoc in *.
    destruct (dot_atom_none E l 91 (b ++ [93] ++ r ++ i)) as [e He]; [auto|vis|vis|reflexivity|].
    change (91 :: b ++ [93] ++ r ++ i) with ([91] ++ b ++ [93] ++ r ++ i) in He. rewrite He. cbn [attempt]. rewrite D. reflexivity.
Qed.
Lemma local_part_forward : forall E c v i, rfc_local_part (f_compatibility_fixes E) c v -> follows c i -> plain_end i -> local_part E (c ++ i) = Ok (i, v).
Proof.
  intros E c v i [c' v' H|c' v' H] Hf Hi; unfold local_part; cbn [match_parsers].
  - rewrite (dot_atom_forward E c' v') by auto. reflexivity.
  - pose proof (quoted_string_forward c' v' i H Hf) as D. destruct H as [l b v'' r Hl Hb Hr]. rewrite <- !app_assoc in *.
    destruct (dot_atom_none E l 34 (b ++ [34] ++ r ++ i)) as [e He]; [auto|vis|vis|reflexivity|].
    change (34 :: b ++ [34] ++ r ++ i) with ([34] ++ b ++ [34] ++ r ++ i) in He. rewrite He. cbn [attempt]. rewrite D. reflexivity.
Qed.
Lemma follows_head' : forall x c r, visible c -> c <> 40 -> follows x (c :: r).
Proof. intros. apply starts_visible_follows. now apply starts_visible_cons. Qed.
Lemma addr_spec_forward : forall E c a i, rfc_addr_spec (f_compatibility_fixes E) c a -> follows c i -> plain_end i -> addr_spec E (c ++ i) = Ok (i, a).
Proof.
  intros E c a i [c1 l c2 d H1 H2] Hf Hi. apply (follows_after1 c1 64 c2 i) in Hf; [|vis]. unfold addr_spec. rewrite <- !app_assoc.
  rewrite (local_part_forward E c1 l); [|auto|apply follows_head'; vis|split; reflexivity]. cbn [bind]. change (bs "@") with [64]. rewrite tag_app. cbn [bind].
  rewrite (domain_forward E c2 d) by auto. reflexivity.
Qed.
Lemma angle_addr_core : forall E l c a i j, rfc_oCFWS l -> rfc_addr_spec (f_compatibility_fixes E) c a -> skip_cfws i = Ok j ->
  angle_addr E (l ++ [60] ++ c ++ [62] ++ i) = Ok (j, a).
Proof.
  intros E l c a i j Hl Hc Hi. unfold angle_addr. destruct (ocfws_before l 60 (c ++ [62] ++ i)) as [o Ho]; [auto|vis|vis|].
  change (60 :: c ++ [62] ++ i) with ([60] ++ c ++ [62] ++ i) in Ho. rewrite Ho. cbn [bind]. change (bs "<") with [60]. rewrite tag_app. cbn [bind].
  rewrite (addr_spec_forward E c a); [|auto|apply follows_head'; vis|split; reflexivity]. cbn [bind]. change (bs ">") with [62]. rewrite tag_app. cbn [bind].
  destruct (skip_optional _ _ Hi) as [o' ->]. reflexivity.
Qed.
Lemma angle_addr_forward : forall E c a i, rfc_angle_addr (f_compatibility_fixes E) c a -> follows c i -> angle_addr E (c ++ i) = Ok (i, a).
Proof.
  intros E c a i [l c' a' r Hl Hc Hr] Hf. replace (l ++ [60] ++ c' ++ [62] ++ r) with ((l ++ [60] ++ c') ++ [62] ++ r) in Hf by (now rewrite <- !app_assoc).
  apply follows_after1 in Hf; [|vis]. rewrite <- !app_assoc. apply angle_addr_core; auto. now apply skip_cfws_forward.
Qed.
Lemma angle_addr_none : forall E l i, rfc_oCFWS l -> follows l i -> ends (fun c => 60 =? c) i -> exists e, angle_addr E (l ++ i) = Err e.
Proof.
  intros E l i Hl Hf Hi. unfold angle_addr. destruct (ocfws_forward l i Hl Hf) as [o ->]. cbn [bind]. change (bs "<") with [60].
  rewrite tag_head_err by auto. cbn. eauto.
Qed.

(* ---- words ---- *)
(* white space read by `optional fws` in front of a word *)
Lemma ofws_on_cfws : forall l i, rfc_oCFWS l -> follows l i -> exists j o, optional fws (l ++ i) = Ok (j, o) /\ (j = i \/ exists t, j = 40 :: t).
Proof.
  intros l i [|l' [t w v Ht Hw|w v Hw]] Hf.
  - cbn [app]. destruct Hf as [F1 F2]. pose proof (ofws_forward [] [] i oFWS_none (stop_wsp _ F1) (proj2 F1) (or_intror _ (ltac:(discriminate) : settled []))) as O.
    cbn [app] in O. rewrite O. eauto.
  - apply comments_split in Ht as (a & va & c & s & -> & Ha & Hc & _). rewrite <- !app_assoc. rewrite (ofws_inner a va); [|auto|now apply comment_inner].
    apply comment_head in Hc as [b ->]. cbn [app]. eexists _, _. split; [reflexivity|]. right. eauto.
  - destruct Hf as [F1 F2]. rewrite (ofws_forward w v i (oFWS_some _ _ Hw) (stop_wsp _ F1) (proj2 F1) F2). eauto.
Qed.
Lemma encoded_word_none : forall E i, (forall t, i <> bs "=?" ++ t) -> exists e, encoded_word E i = Err e.
Proof.
  intros E i H. unfold encoded_word. rewrite tag_err; [cbn; eauto|]. destruct (starts_with i (bs "=?")) eqn:X; auto.
  apply starts_with_spec in X as [t ->]. now destruct (H t).
Qed.
Lemma phrase_word_plain : forall E l i, rfc_oCFWS l -> follows l i -> (f_mime E = true -> forall t, i <> bs "=?" ++ t) -> phrase_word E (l ++ i) = word (l ++ i)
   \/ exists e1 e2, phrase_word E (l ++ i) = Err e1 /\ word (l ++ i) = Err e2.
Proof.
  intros E l i Hl Hf Hn. unfold phrase_word. destruct (f_mime E); [|now left]. cbn [match_parsers].
  destruct (ofws_on_cfws l i Hl Hf) as (j & o & Ho & Hj). rewrite Ho. cbn [bind].
  destruct (encoded_word_none E j) as [e ->].
  { destruct Hj as [->|[t ->]]; [auto|discriminate]. }
  cbn [attempt]. destruct (word (l ++ i)) as [[r v]| |]; cbn [attempt]; eauto.
Qed.

(* the middle of a word; [k]: an encoded word *)
Inductive wcore (mime : bool) (EW : bytes -> bytes -> Prop) : bool -> bool -> bytes -> bytes -> Prop :=
| core_atom : forall a, chars1 rfc_atext a -> not_encoded mime a -> wcore mime EW false true a a
| core_quoted : forall b v, rfc_qbody b v -> wcore mime EW false false ([34] ++ b ++ [34]) v
| core_encoded : forall c v, EW c v -> wcore mime EW true false c v.
Definition wlead (k : bool) (l : bytes) : Prop := if k then exists v, rfc_oFWS l v else rfc_oCFWS l.
Definition wtrail (k : bool) (r : bytes) : Prop := if k then r = [] else rfc_oCFWS r.
Lemma wlead_oCFWS : forall k l, wlead k l -> rfc_oCFWS l.
Proof. intros [] l H; auto. destruct H as [v [|w v' H]]; [constructor|]. constructor. eapply CFWS_fws; eauto. Qed.
Lemma wtrail_oCFWS : forall k l, wtrail k l -> rfc_oCFWS l.
Proof. intros [] l H; auto. cbn in H. subst. constructor. Qed.
Lemma clear_word_split : forall mime EW c v, clear_word mime EW c v ->
  exists k a l x r, c = l ++ x ++ r /\ wlead k l /\ wcore mime EW k a x v /\ wtrail k r.
Proof.
  intros mime EW c v [c' v' [l a r Hl Ha Hr] Hn|c' v' [l b w r Hl Hb Hr]|w y c' v' Hw Hc].
  - exists false, true, l, a, r. split; [auto|]. split; [exact Hl|]. split; [now constructor|exact Hr].
  - exists false, false, l, ([34] ++ b ++ [34]), r. rewrite <- !app_assoc. split; [auto|]. split; [exact Hl|]. split; [now constructor|exact Hr].
  - exists true, false, w, c', []. rewrite app_nil_r. split; [auto|]. split; [exists y; exact Hw|]. split; [now constructor|reflexivity].
Qed.
Lemma wcore_starts : forall E k a x v r, wcore (f_mime E) (encoded E) k a x v -> starts_visible (x ++ r).
Proof.
  intros E k a x v r [a' Ha Hn|b v' Hb|c v' [Hm Hc]].
  - eapply chars1_starts; [exact atext_visible|exact Ha].
  - apply starts_visible_cons; vis.
  - destruct Hc. exists 61. eexists. split; [reflexivity|split; vis].
Qed.
Lemma wcore_nonempty : forall E k a x v, wcore (f_mime E) (encoded E) k a x v -> exists d y, x = d :: y.
Proof. intros E k a x v H. apply (wcore_starts _ _ _ _ _ []) in H as (d & t & H & _). rewrite app_nil_r in H. eauto. Qed.
Lemma wcore_last : forall E k a x v, wcore (f_mime E) (encoded E) k a x v -> exists y d, x = y ++ [d] /\ visible d /\ (a = true -> rfc_atext d).
Proof.
  intros E k a x v [a' [Hn Ha] _|b v' Hb|c v' [Hm Hc]].
  - destruct (exists_last Hn) as (y & d & ->). exists y, d. apply Forall_app in Ha as [_ Ha]. inversion Ha; subst. split; auto. split; auto. now apply atext_visible.
  - exists ([34] ++ b), 34. rewrite <- app_assoc. split; auto. split; [vis|discriminate].
  - destruct Hc as [charset lang e text raw v'']. exists (bs "=?" ++ charset ++ lang ++ bs "?" ++ e ++ bs "?" ++ text ++ bs "?"), 61. rewrite <- !app_assoc.
    split; [reflexivity|]. split; [vis|discriminate].
Qed.
Lemma wcore_follows : forall E k a x v l r i, wcore (f_mime E) (encoded E) k a x v -> follows (l ++ x ++ r) i <-> follows r i.
Proof.
  intros E k a x v l r i H. apply wcore_last in H as (y & d & -> & Hd & _).
  replace (l ++ (y ++ [d]) ++ r) with ((l ++ y) ++ [d] ++ r) by (now rewrite <- !app_assoc). now apply follows_after1.
Qed.
(* one word; what follows starts with i, white space and all *)
Lemma phrase_word_core : forall E k a l x v i j, wlead k l -> wcore (f_mime E) (encoded E) k a x v ->
  (a = true -> ends is_atext i) -> (if k then j = i else skip_cfws i = Ok j) -> phrase_word E (l ++ x ++ i) = Ok (j, v).
Proof.
  intros E k a l x v i j Hl Hx Ha Hj. pose proof (wcore_starts E k a x v i Hx) as Hs. pose proof (wlead_oCFWS _ _ Hl) as Hl'.
  destruct Hx as [a' Hat Hn|b v' Hb|c v' [Hm Hc]].
  - assert (W : word (l ++ a' ++ i) = Ok (j, a')).
    { unfold word. cbn [match_parsers]. rewrite atom_core by auto. rewrite Hj. reflexivity. }
    destruct (phrase_word_plain E l (a' ++ i) Hl' (starts_visible_follows _ _ Hs)) as [P|(e1 & e2 & _ & P)].
    + intros Hm t Ht. destruct Hat as [Hn0 Hat]. destruct a' as [|x [|y a']]; [congruence| |].
      * cbn [app] in Ht. destruct i as [|y i]; [discriminate|]. injection Ht as -> -> _. discriminate (Ha eq_refl).
      * injection Ht as -> -> Ht. now apply (Hn Hm a').
    + congruence.
    + congruence.
  - assert (W : word (l ++ ([34] ++ b ++ [34]) ++ i) = Ok (j, v')).
    { unfold word. cbn [match_parsers]. rewrite <- !app_assoc. destruct (atom_none l 34 (b ++ [34] ++ i)) as [e He]; [auto|vis|vis|reflexivity|].
      change (34 :: b ++ [34] ++ i) with ([34] ++ b ++ [34] ++ i) in He. rewrite He. cbn [attempt]. rewrite (quoted_string_core l b v') by auto. rewrite Hj. reflexivity. }
    destruct (phrase_word_plain E l (([34] ++ b ++ [34]) ++ i) Hl' (starts_visible_follows _ _ Hs)) as [P|(e1 & e2 & _ & P)].
    + intros _ t Ht. discriminate.
    + congruence.
    + congruence.
  - cbn in Hj. subst j. unfold phrase_word. rewrite Hm. cbn [match_parsers]. destruct Hl as [u Hu].
    rewrite (ofws_inner l u); [|auto|destruct Hc; reflexivity]. cbn [bind]. rewrite (encoded_word_forward E c v') by auto. reflexivity.
Qed.
Lemma quoted_string_none : forall l i, rfc_oCFWS l -> follows l i -> ends (fun c => 34 =? c) i -> exists e, quoted_string (l ++ i) = Err e.
Proof.
  intros l i Hl Hf H. unfold quoted_string. rewrite (skip_cfws_forward l i) by auto. cbn [bind].
  match goal with |- context [starts_with i ?d] => destruct (starts_with i d) eqn:X end; [|eauto].
  apply starts_with_spec in X as [t ->]. discriminate H.
Qed.
Lemma word_none : forall l i, rfc_oCFWS l -> follows l i -> ends is_atext i -> ends (fun c => 34 =? c) i -> exists e, word (l ++ i) = Err e.
Proof.
  intros l i Hl Hf H1 H2. unfold word. cbn [match_parsers]. destruct (quoted_string_none l i Hl Hf H2) as [e2 ->]. unfold atom. rewrite (skip_cfws_forward l i) by auto. cbn [bind].
  destruct (take_while1_err is_atext i H1) as [e ->]. cbn [map_err bind attempt]. eauto.
Qed.
Lemma phrase_word_none : forall E l i, rfc_oCFWS l -> follows l i -> ends is_atext i -> ends (fun c => 34 =? c) i -> exists e, phrase_word E (l ++ i) = Err e.
Proof.
  intros E l i Hl Hf H1 H2. destruct (word_none l i Hl Hf H1 H2) as [e He].
  destruct (phrase_word_plain E l i Hl Hf) as [P|(e1 & e2 & P & _)].
  - intros _ t ->. discriminate.
  - rewrite P, He. eauto.
  - eauto.
Qed.

(* ---- phrases ---- *)
(* the text after the leading white space *)
Inductive tail_words (E : env) : bool -> bytes -> list bytes -> Prop :=
| tail_words_one : forall k a x v r, wcore (f_mime E) (encoded E) k a x v -> wtrail k r -> tail_words E k (x ++ r) [v]
| tail_words_more : forall k a x v r k2 l c ls, wcore (f_mime E) (encoded E) k a x v -> wtrail k r -> wlead k2 l -> tail_words E k2 c ls ->
    (a = true -> ends is_atext (r ++ l ++ c)) -> tail_words E k (x ++ r ++ l ++ c) (v :: ls).
Lemma tail_words_starts : forall E k c ls r, tail_words E k c ls -> starts_visible (c ++ r).
Proof. intros E k c ls r [k' a x v r' H Hr|k' a x v r' k2 l c' ls' H Hr Hl Hc Ha]; rewrite <- ?app_assoc; eapply wcore_starts; eauto. Qed.
Lemma clear_phrase_tail : forall E c ls, clear_phrase (f_mime E) (encoded E) c ls -> exists k l c', c = l ++ c' /\ wlead k l /\ tail_words E k c' ls.
Proof.
  intros E c ls H. induction H as [c v Hc|c v cs ls Hc Ha Hcs (k2 & l2 & c2 & -> & Hl2 & Ht2)];
    apply clear_word_split in Hc as (k & a & l & x & r & -> & Hl & Hx & Hr).
  - exists k, l, (x ++ r). split; auto. split; auto. econstructor; eauto.
  - exists k, l, (x ++ r ++ l2 ++ c2). rewrite <- !app_assoc. split; auto. split; auto. econstructor; eauto.
    intros ->. apply oCFWS_ends; try reflexivity; [eapply wtrail_oCFWS; eauto|]. intros ->. rewrite app_nil_r in Ha.
    destruct (l2 ++ c2) as [|y b] eqn:E2; [exact I|]. cbn. destruct (is_atext y) eqn:Y; auto. apply atext_spec in Y.
    destruct (wcore_last _ _ _ _ _ Hx) as (z & d & -> & _ & Hd). exfalso. apply (Ha (l ++ z) d y b); [now rewrite <- app_assoc|reflexivity|]. auto.
Qed.
(* white space in front of the next word *)
Lemma word_junction : forall k k2 r l i, wtrail k r -> wlead k2 l -> starts_visible i ->
  exists l' j, wlead k2 l' /\ j = l' ++ i /\ (if k then j = r ++ l ++ i else skip_cfws (r ++ l ++ i) = Ok j) /\ (length j <= length (r ++ l ++ i))%nat.
Proof.
  intros k k2 r l i Hr Hl Hi. destruct k.
  - cbn in Hr. subst r. exists l, (l ++ i). cbn [app]. auto.
  - destruct k2; cbn [wlead wtrail] in *.
    + destruct Hl as [u Hu]. apply cfws_parts_of in Hr as (t & w & v & -> & Ht & Hw). destruct (fws_join w v l u Hw Hu) as [[y Hy]|(x & y & z & E & Hx & Sx & Hy)].
      * exists [], i. split; [exists []; constructor|]. split; [reflexivity|]. split; [|rewrite !app_length; lia].
        replace ((t ++ w) ++ l ++ i) with ((t ++ (w ++ l)) ++ i) by (now rewrite <- !app_assoc). apply skip_cfws_forward; [|now apply starts_visible_follows].
        apply cfws_parts_of. exists t, (w ++ l), y. auto.
      * exists (CRLF ++ y), ((CRLF ++ y) ++ i). split; [exists ([] ++ y); constructor; apply (FWS_fold []); [constructor|auto]|]. split; [reflexivity|].
        replace ((t ++ w) ++ l ++ i) with (t ++ (w ++ l) ++ i) by (now rewrite <- !app_assoc). rewrite E. split; [|rewrite !app_length; lia].
        rewrite <- !app_assoc. eapply cfws_before_fold; eauto. apply crlf_no_paren.
    + destruct (two_cfws_short r l i Hr Hl Hi) as (l' & H1 & H2 & H3). exists l', (l' ++ i). auto.
Qed.
Definition phrase_end (r l i : bytes) : Prop := (l = [] /\ follows r i) \/ starts_visible i.
Lemma end_junction : forall k r l i, wtrail k r -> rfc_oCFWS l -> phrase_end r l i ->
  exists l' j, rfc_oCFWS l' /\ j = l' ++ i /\ (if k then j = r ++ l ++ i else skip_cfws (r ++ l ++ i) = Ok j) /\ (length j <= length (r ++ l ++ i))%nat /\ follows l' i /\ (l = [] -> l' = []).
Proof.
  intros k r l i Hr Hl Hi. destruct k.
  - cbn in Hr. subst r. exists l, (l ++ i). cbn [app]. split; [auto|]. split; [auto|]. split; [auto|]. split; [lia|]. split; [|auto].
    destruct Hi as [[-> H]|H]; [exact H|now apply starts_visible_follows].
  - cbn [wtrail] in Hr. assert (X : l = [] /\ follows r i \/ l <> [] /\ starts_visible i).
    { destruct Hi as [|H]; auto. destruct l; [left; split; auto; now apply starts_visible_follows|right; split; [discriminate|auto]]. }
    destruct X as [[-> H]|[Hn H]].
    + exists [], i. split; [constructor|]. split; [reflexivity|]. cbn [app]. split; [now apply skip_cfws_forward|]. split; [rewrite app_length; lia|]. split; [apply follows_empty; apply H|auto].
    + destruct (two_cfws_short r l i Hr Hl H) as (l' & H1 & H2 & H3). exists l', (l' ++ i). split; [auto|]. split; [auto|]. split; [auto|]. split; [auto|].
      split; [now apply starts_visible_follows|congruence].
Qed.
Lemma phrase_end_after : forall E k a x v r l i, wcore (f_mime E) (encoded E) k a x v -> phrase_end (x ++ r) l i -> phrase_end r l i.
Proof. intros E k a x v r l i Hx [[H1 H2]|H]; [left|now right]. split; auto. apply (wcore_follows _ _ _ _ _ [] r i Hx). exact H2. Qed.
Lemma tail_words_steps : forall E k c ls, tail_words E k c ls -> forall l1 lt i, wlead k l1 -> rfc_oCFWS lt -> phrase_end c lt i ->
  ends is_atext i -> ends (fun c => 34 =? c) i ->
  exists l', rfc_oCFWS l' /\ follows l' i /\ (lt = [] -> l' = []) /\ steps (phrase_word E) (l1 ++ c ++ lt ++ i) ls (l' ++ i).
Proof.
  intros E k c ls H. induction H as [k a x v r Hx Hr|k a x v r k2 l c ls Hx Hr Hl Hc IH Ha]; intros l1 lt i H1 Hlt He H2 H3;
    destruct (wcore_nonempty _ _ _ _ _ Hx) as (d & y & Ey).
  - apply (phrase_end_after _ _ _ _ _ _ _ _ Hx) in He. destruct (end_junction k r lt i Hr Hlt He) as (l' & j & L1 & -> & L2 & L3 & L4 & L5).
    exists l'. split; auto. split; auto. split; auto. rewrite <- !app_assoc. eapply steps_more.
    + eapply phrase_word_core; eauto. intros ->. apply oCFWS_ends; try reflexivity; [eapply wtrail_oCFWS; eauto|]. intros _. apply oCFWS_ends; auto.
    + rewrite (app_length l1). pose proof (app_shorter x _ _ _ _ Ey L3). lia.
    + destruct (phrase_word_none E l' i) as [e Hpe]; auto. eapply steps_stop; eauto.
  - assert (Hs : starts_visible (c ++ lt ++ i)) by (eapply tail_words_starts; eauto).
    destruct (word_junction k k2 r l (c ++ lt ++ i) Hr Hl Hs) as (l2 & j & L1 & -> & L2 & L3).
    destruct (IH l2 lt i) as (l' & K1 & K2 & K3 & K4); auto.
    { destruct He as [[E1 E2]|E1]; [left|now right]. split; auto. destruct E2 as [F1 F2]. split; auto. destruct F2 as [F2|F2]; auto. right.
      destruct Hc as [k3 a3 x3 v3 r3 Hx3 Hr3|k3 a3 x3 v3 r3 k4 l4 c4 ls4 Hx3 Hr3 Hl4 Hc4 Ha4]; apply wcore_last in Hx3 as (z & w & -> & Hw & _).
      - replace (x ++ r ++ l ++ (z ++ [w]) ++ r3) with (((x ++ r ++ l ++ z) ++ [w]) ++ r3) in F2 by (now rewrite <- !app_assoc).
        apply settled_app in F2; [|now apply visible_wsp|unfold visible in Hw; lia]. apply settled_app; [now apply visible_wsp|unfold visible in Hw; lia|exact F2].
      - replace (x ++ r ++ l ++ (z ++ [w]) ++ r3 ++ l4 ++ c4) with (((x ++ r ++ l ++ z) ++ [w]) ++ r3 ++ l4 ++ c4) in F2 by (now rewrite <- !app_assoc).
        apply settled_app in F2; [|now apply visible_wsp|unfold visible in Hw; lia]. apply settled_app; [now apply visible_wsp|unfold visible in Hw; lia|exact F2]. }
    exists l'. split; auto. split; auto. split; auto. rewrite <- !app_assoc. eapply steps_more; [| |exact K4].
    + eapply phrase_word_core; eauto. intros ->. replace (r ++ l ++ c ++ lt ++ i) with ((r ++ l ++ c) ++ lt ++ i) by (now rewrite <- !app_assoc). apply ends_app; auto.
      intros E0. apply app_eq_nil in E0 as [_ E0]. apply app_eq_nil in E0 as [_ E0]. subst c. destruct (tail_words_starts _ _ _ _ [] Hc) as (? & ? & ? & _). discriminate.
    + rewrite (app_length l1). pose proof (app_shorter x _ _ _ _ Ey L3). lia.
Qed.
Lemma steps_nonempty : forall A (p : parser A) i l r x e, steps p i l r -> p i = Ok (x, e) -> l <> [].
Proof. intros A p i l r x e H Hp. destruct H; [congruence|discriminate]. Qed.
Lemma clear_phrase_nonempty : forall m EW c l, clear_phrase m EW c l -> l <> [].
Proof. intros m EW c l []; discriminate. Qed.
(* a phrase, then CFWS, then i *)
Lemma phrase_forward : forall E c n lt i, clear_phrase (f_mime E) (encoded E) c n -> rfc_oCFWS lt -> phrase_end c lt i ->
  ends is_atext i -> ends (fun c => 34 =? c) i ->
  exists l', rfc_oCFWS l' /\ follows l' i /\ (lt = [] -> l' = []) /\ phrase E (c ++ lt ++ i) = Ok (l' ++ i, n).
Proof.
  intros E c n lt i H Hlt He H1 H2. pose proof (clear_phrase_nonempty _ _ _ _ H) as Hn. apply clear_phrase_tail in H as (k & l & c' & -> & Hl & Ht).
  destruct (tail_words_steps E k c' n Ht l lt i) as (l' & K1 & K2 & K3 & K4); auto.
  { destruct He as [[E1 E2]|E1]; [left|now right]. split; auto. destruct E2 as [F1 F2]. split; auto. destruct F2 as [F2|F2]; auto. right.
    destruct Ht as [k3 a3 x3 v3 r3 Hx3 Hr3|k3 a3 x3 v3 r3 k4 l4 c4 ls4 Hx3 Hr3 Hl4 Hc4 Ha4]; apply wcore_last in Hx3 as (z & w & -> & Hw & _).
    - replace (l ++ (z ++ [w]) ++ r3) with (((l ++ z) ++ [w]) ++ r3) in F2 by (now rewrite <- !app_assoc).
      apply settled_app in F2; [|now apply visible_wsp|unfold visible in Hw; lia]. apply settled_app; [now apply visible_wsp|unfold visible in Hw; lia|exact F2].
    - replace (l ++ (z ++ [w]) ++ r3 ++ l4 ++ c4) with (((l ++ z) ++ [w]) ++ r3 ++ l4 ++ c4) in F2 by (now rewrite <- !app_assoc).
      apply settled_app in F2; [|now apply visible_wsp|unfold visible in Hw; lia]. apply settled_app; [now apply visible_wsp|unfold visible in Hw; lia|exact F2]. }
  exists l'. split; auto. split; auto. split; auto. unfold phrase. rewrite <- app_assoc. now apply many1_steps.
Qed.

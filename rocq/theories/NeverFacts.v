(* C74: without mime, a mail made of header lines is refused only for what is missing or repeated. *)
From Coq Require Import Lia ZifyBool ZifyNat ZifyN.
From Verif Require Import SafetyProofs Base Utf8 CharSets Combinators Whitespace QuotedString Common Time Address MimeFields Fields Message Entity Email Envs
  Rfc5322 Rfc2047 Post CodecSpec RfcFields SoundBase SoundTime SoundAddr TagNoCase SoundFields EmailSpec SoundMessage EmailProofs MessageFacts Steps Complete CompleteFields Forward
  ForwardText ForwardMime ForwardFields ForwardMessage HeaderFacts LocalSpec Local LocalFacts KeptFacts Writers WriteFacts WriteAddr RegularSpec RegularFacts NeatFacts TidyFacts TraceFacts RangeFacts LinedFacts LessFacts LineSpec LineFacts LessExact
  KeenFacts ExactSpec RangeWrite PercentProofs ExactFacts MimeExactSpec MimeExactFields TruncSpec TruncFacts ShownSpec ShownFacts NeverSpec.
Local Open Scope N_scope.

Lemma good_read : forall E x i, env_ok E -> f_mime E = false -> good_line x -> ends is_wsp i -> exists f, any_field E (LineSpec.line_text x ++ i) = Ok (i, f).
Proof.
  intros E [n t] i HE HM [[Hn Ht] Hu] Hi. unfold LineSpec.line_text. cbn [fst snd] in *. change (bs ":") with [58] in *. rewrite <- !app_assoc.
  destruct (clear_value_exists E t Ht Hu) as [v Hv].
  assert (HU : f_unrecognized_headers E = false). { destruct (f_unrecognized_headers E) eqn:U; [|reflexivity]. pose proof (ok_unrecognized E HE U). congruence. }
  destruct (header_line E n t v i HE (or_intror HM) Hn Hv Hi) as [X|(x & r & g & X & Hx & Hg & S)]; [eauto|]. rewrite HU in Hv.
  assert (D : structured_kind g \/ ~ structured_kind g) by (destruct g; cbn; auto). destruct D as [D|D].
  - pose proof S as S'. unfold any_field in S'. apply match_ok in S' as (p & Hp & S'). pose proof (fields_stop_well E HM) as G. rewrite Forall_forall in G. destruct (G p Hp _ _ _ S' D) as (c & Y & _ & F).
    assert (N : near i i (n ++ [58] ++ t ++ CRLF ++ i) (n ++ [58] ++ t ++ CRLF ++ i)) by (exists (n ++ [58] ++ t); now rewrite <- !app_assoc).
    pose proof (lrel_self _ _ _ _ _ (hlocal_any_field i i Hi Hi E _ _ N) S) as L.
    assert (r = i) as ->. { apply (line_taken (n ++ [58] ++ t) i c r); auto; [now apply line_lined|now apply line_unblank|now rewrite <- !app_assoc]. }
    eauto.
  - assert (T : forall name c s, f_mime E = false -> rfc_header name (rfc_text_value (f_mime E) (textcode E)) x s -> c = x ++ r -> n ++ [58] ++ t ++ CRLF ++ i = c -> ~ In 58 (bs name) -> same_nocase n (bs name)).
    { intros name c s _ Hh -> Hc Hcol. destruct Hh as [m u s' Hm Hu']. rewrite <- !app_assoc in Hc. cbn [app] in Hc. apply colon_unique in Hc as [-> _]; [exact Hm|now apply ftext_no_colon|eapply fold_nocolon; eauto]. }
    destruct Hx as [| | | | | | | | | |c s F Hc|c s F Hc| |c x0 y F _|c t0 s p F _|c e F _|c i0 F _|c s F _|c d F _|c1 p c2 rr c3 l _ _ _ _ _|c n0 v0 Hc]; try (exfalso; now apply D); try congruence.
    + exists (FSubject v). replace (n ++ [58] ++ t ++ CRLF ++ i) with ((n ++ [58] ++ t ++ CRLF) ++ i) by now rewrite <- !app_assoc. apply clear_same; auto. apply clear_subject; [exact F|]. rewrite HM. constructor; [|exact Hv]. apply (T "Subject"%string _ s HM Hc eq_refl X). no_colon.
    + exists (FComments v). replace (n ++ [58] ++ t ++ CRLF ++ i) with ((n ++ [58] ++ t ++ CRLF) ++ i) by now rewrite <- !app_assoc. apply clear_same; auto. apply clear_comments; [exact F|]. rewrite HM. constructor; [|exact Hv]. apply (T "Comments"%string _ s HM Hc eq_refl X). no_colon.
    + exfalso. pose proof (any_field_not_trace E _ _ _ S). discriminate.
Qed.
Definition read_as (E : env) (x : line) (f : field) : Prop := field_text E (LineSpec.line_text x) f /\ is_trace f = None.
(* lines that are read up to their end, whatever follows *)
Definition legible (E : env) (x : line) : Prop := proper_line x /\ forall i, ends is_wsp i -> exists f, any_field E (LineSpec.line_text x ++ i) = Ok (i, f).
Lemma good_legible : forall E ls, env_ok E -> f_mime E = false -> Forall good_line ls -> Forall (legible E) ls.
Proof. intros E ls HE HM H. eapply Forall_impl; [|exact H]. intros x Hx. split; [exact (proj1 Hx)|]. intros i Hi. now apply good_read. Qed.
Lemma good_steps : forall E ls i, env_ok E -> Forall (legible E) ls -> bare i -> exists fs, Forall2 (read_as E) ls fs /\ steps (any_field E) (LineSpec.block_text ls ++ i) fs i.
Proof.
  intros E ls i HE H Hi. induction H as [|x ls Hx H IH].
  - exists []. split; [constructor|]. destruct (any_field_bare E i Hi) as [e X]. econstructor. exact X.
  - destruct IH as (fs & L & IH). assert (N : new_line (LineSpec.block_text ls ++ i)). { apply block_new_line; [eapply Forall_impl; [|exact H]; intros y [Y _]; exact Y|now apply bare_new_line]. }
    destruct Hx as [_ Hx]. destruct (Hx (LineSpec.block_text ls ++ i)) as [f F]; [now apply new_line_ends|]. exists (f :: fs). split.
    { constructor; [|exact L]. split; [|exact (any_field_not_trace E _ _ _ F)]. destruct (any_field_sound E _ _ _ HE F) as (c & Ec & Hc). apply app_inv_tail in Ec. now rewrite Ec. }
    change (LineSpec.block_text (x :: ls)) with (LineSpec.line_text x ++ LineSpec.block_text ls). rewrite <- app_assoc. econstructor; [exact F| |exact IH].
    rewrite app_length. unfold LineSpec.line_text. rewrite !app_length. cbn. lia.
Qed.
Lemma body_part_bare : forall r, body_part r -> bare r /\ exists b, rest_text r b /\ forall x, b = Some x -> body_text x.
Proof.
  intros r [|b H]; split; [now left| |right; now exists b|].
  - exists None. split; [constructor|discriminate].
  - exists (Some b). split; [constructor|]. intros x X. injection X as <-. exact H.
Qed.
Lemma crlf_untraced : forall b, ~ starts_trace (CRLF ++ b).
Proof.
  intros b (name & n & q & Hi & Hn & X). cbn [tracing In] in Hi. unfold same_nocase in Hn. destruct n as [|c n]; [discriminate X|]. injection X as <- _.
  repeat (destruct Hi as [<-|Hi]; [vm_compute in Hn; discriminate|]). exact Hi.
Qed.
Lemma body_part_untraced : forall r, body_part r -> ~ starts_trace r.
Proof. intros r [|b _]; [exact nil_no_trace|apply crlf_untraced]. Qed.
Lemma start_no_trace : forall ls i, Forall proper_line ls -> untraced_start ls -> ~ starts_trace i -> ~ starts_trace (LineSpec.block_text ls ++ i).
Proof. intros ls i H1 H2 Hi. destruct H1 as [|x ls H1 _]; [exact Hi|]. unfold LineSpec.block_text. cbn [map concat]. rewrite <- app_assoc. now apply line_no_trace. Qed.
Lemma untraced_all : forall ls, Forall (fun x => ~ trace_line x) ls -> untraced_start ls.
Proof. intros ls []; [exact I|assumption]. Qed.
Lemma good_message : forall E ls r, env_ok E -> f_mime E = false -> Forall good_line ls -> (f_trace E = true -> untraced_start ls) -> body_part r ->
  exists fs b, Forall2 (read_as E) ls fs /\ parse_message E (LineSpec.block_text ls ++ r) = Ok (fs, b).
Proof.
  intros E ls r HE HM H HT Hr. destruct (body_part_bare r Hr) as (B & b & R & X). destruct (good_steps E ls r HE (good_legible E ls HE HM H) B) as (fs & L & S). exists fs, b. split; [exact L|].
  apply message_ok. exists r. split; [|split; [exact B|split; [exact R|intros _; exact X]]]. apply fields_of_steps; [exact HE| |exact S].
  intros T. apply no_starts_trace. apply start_no_trace; [eapply Forall_impl; [|exact H]; intros y [Y _]; exact Y|now apply HT|now apply body_part_untraced].
Qed.
(* a line read as a header that may appear only once has its name *)
Lemma read_named : forall E x f n, proper_line x -> read_as E x f -> singular f = Some n -> same_nocase (fst x) (bs n).
Proof.
  intros E [m t] f n [Hm _] [F T] S. unfold LineSpec.line_text in F. cbn [fst snd] in *. change (bs ":") with [58] in F. destruct (field_named E m _ f Hm F T) as [(c & v & -> & _)|(N & K & Hn & _)]; [discriminate|].
  destruct f; try discriminate; injection S as <-; injection K as <-; exact Hn.
Qed.
Theorem good_lines : forall E ls r, env_ok E -> f_mime E = false -> Forall good_line ls -> (f_trace E = true -> untraced_start ls) -> body_part r ->
  (exists e, parse E (LineSpec.block_text ls ++ r) = Ok e) \/ (exists n, mandatory_name n /\ parse E (LineSpec.block_text ls ++ r) = Err (MissingHeader n)) \/
  exists n, repeated n ls /\ parse E (LineSpec.block_text ls ++ r) = Err (DuplicateHeader n).
Proof.
  intros E ls r HE HM H HT Hr. destruct (good_message E ls r HE HM H HT Hr) as (fs & b & L & M). pose proof (assemble_spec E fs b) as A. rewrite (parse_assemble _ _ _ _ M).
  destruct (let* a := set_fields acc0 fs in finish E a b) as [e'|err'|k]; [eauto| |contradiction]. right. inversion A as [n D| | | |]; subst; try congruence; [right|left; eexists; (split; [|reflexivity]); unfold mandatory_name; auto..].
  exists n. split; [|reflexivity]. destruct D as (pre & f & post & -> & S & I & _). apply SoundMessage.in_pick in I as (g & I & S'). apply in_split in I as (p1 & p2 & ->).
  apply Forall2_app_inv_r in L as (l1 & l2 & L1 & L2 & ->). apply Forall2_app_inv_r in L1 as (l3 & l4 & _ & L1 & ->). inversion L1 as [|x ? l5 ? X _]; subst. inversion L2 as [|y ? l6 ? Y _]; subst.
  apply Forall_app in H as [H1 H2]. apply Forall_app in H1 as [_ H1]. inversion H1 as [|? ? [X' _] _]; subst. inversion H2 as [|? ? [Y' _] _]; subst.
  exists l3, x, l5, y, l6. split; [now rewrite <- app_assoc|]. split; eapply read_named; eauto.
Qed.
Theorem good_added : forall E ls more r e, env_ok E -> f_mime E = false -> Forall good_line (ls ++ more) -> (f_trace E = true -> Forall (fun x => ~ trace_line x) (ls ++ more)) -> body_part r ->
  parse E (LineSpec.block_text ls ++ r) = Ok e -> (forall n, ~ repeated n (ls ++ more)) -> exists e', parse E (LineSpec.block_text (ls ++ more) ++ r) = Ok e'.
Proof.
  intros E ls more r e HE HM H HT Hr P D. destruct (good_lines E (ls ++ more) r HE HM H (fun T => untraced_all _ (HT T)) Hr) as [X|[(n & _ & X)|(n & R & _)]]; [exact X| |exfalso; exact (D n R)]. exfalso.
  destruct (body_part_bare r Hr) as (B & b & R & Y). pose proof H as H0. apply Forall_app in H0 as [H1 H2].
  assert (HT' : f_trace E = true -> Forall (fun x => ~ trace_line x) ls) by (intros T; apply HT in T; now apply Forall_app in T as [T _]).
  destruct (good_message E ls r HE HM H1 (fun T => untraced_all _ (HT' T)) Hr) as (l1 & b1 & _ & M1). destruct (good_message E (ls ++ more) r HE HM H (fun T => untraced_all _ (HT T)) Hr) as (fs & b2 & _ & M2).
  assert (G : Forall proper_line ls) by (eapply Forall_impl; [|exact H1]; intros y [Z _]; exact Z).
  assert (G' : Forall proper_line more) by (eapply Forall_impl; [|exact H2]; intros y [Z _]; exact Z).
  assert (Q : exists l2, fs = l1 ++ l2).
  { pose proof M1 as N1. apply message_split in N1 as (a & z & -> & N1 & N1'); [|exact HE|exact G|now apply bare_new_line|intros _; now apply body_part_untraced].
    apply message_ok in N1' as (r' & N1' & _). apply fields_of_steps in N1'; [|exact HE|intros _; apply no_starts_trace; now apply body_part_untraced]. destruct (any_field_bare E r B) as [er ER]. inversion N1' as [? ? Z|? ? ? ? ? Z]; subst; [|congruence].
    rewrite app_nil_r in *. pose proof M2 as N2. unfold LineSpec.block_text in N2. rewrite map_app, concat_app, <- app_assoc in N2. apply (message_split E ls) in N2 as (a' & z & -> & N2 & _); [|exact HE|exact G| |].
    - exists z. pose proof (eq_trans (eq_sym N2) N1) as W. injection W as ->. reflexivity.
    - apply (block_new_line more _ G'). now apply bare_new_line.
    - intros T. apply (block_no_trace more _ G'); [apply HT in T; now apply Forall_app in T|now apply body_part_untraced]. }
  destruct Q as [l2 ->]. pose proof (proj1 (parse_iff_email E _ _ _ _ HE M1) P) as O. pose proof (assemble_spec E (l1 ++ l2) b2) as A. rewrite (parse_assemble _ _ _ _ M2) in X. rewrite X in A.
  inversion A as [|Z1 Z2 Z3|Z1 Z2 Z3|Z1 Z2 Z3 Z4|]; subst; rewrite pick_app in Z3; apply app_eq_nil in Z3 as [Z3 _].
  - pose proof (of_from _ _ _ _ O) as W. rewrite Z2 in W. unfold only in W. rewrite Z3 in W. discriminate.
  - pose proof (of_date _ _ _ _ O) as W. rewrite Z2 in W. destruct W as [W W']. unfold only in W. rewrite Z3 in W. cbn in W. congruence.
  - pose proof (of_sender _ _ _ _ O) as W. rewrite Z2 in W. destruct W as [W W']. unfold only at 1 in W. rewrite Z3 in W. cbn in W. pose proof (of_from _ _ _ _ O) as V.
    destruct (from e) as [|a [|a' l]] eqn:F; try congruence. apply (Z4 a). destruct (f_from E); [|discriminate]. unfold authors. rewrite (TruncFacts.only_some _ _ _ l2 _ V). reflexivity.
Qed.
(* no header of an accepted mail is lost *)
Theorem none_lost : forall E ls r e, env_ok E -> Forall proper_line ls -> (f_trace E = true -> Forall (fun x => ~ trace_line x) ls) -> r = [] \/ (exists b, r = CRLF ++ b) ->
  parse E (LineSpec.block_text ls ++ r) = Ok e -> Forall (fun x => exists f, field_text E (LineSpec.line_text x) f /\ shown f e) ls.
Proof.
  intros E ls r e HE H HT B P. destruct (parse_ok_message E _ e P) as (fs & b & M). pose proof (proj1 (parse_iff_email E _ _ _ _ HE M) P) as O.
  assert (U : ~ starts_trace r) by (destruct B as [->|[b' ->]]; [exact nil_no_trace|apply crlf_untraced]).
  apply message_lines in M as (l & l' & -> & L & _); [|exact HE|exact H|now apply bare_new_line|intros T; split; [now apply HT|exact U]].
  apply Forall_forall. intros x Hx. apply in_split in Hx as (a & c & ->). apply Forall2_app_inv_l in L as (l1 & l2 & _ & L & ->). inversion L as [|? f ? l3 F _]; subst.
  apply Forall_app in H as [_ H]. inversion H as [|? ? Px _]; subst.
  destruct (line_alone E x [f] None HE Px) as (g & G & _ & A & Hc); [|exact F|].
  - intros T. apply HT in T. apply Forall_app in T as [_ T]. now inversion T.
  - injection G as <-. exists f. split; [exact Hc|]. rewrite <- app_assoc in O.
    eapply (member_shown E l1 f (l3 ++ l')); [exact O|exact Hc|exact (any_field_not_trace E _ _ _ A)].
Qed.

(* ---- with mime ---- *)
(* the parser of a header stops at the end of a line of the header *)
Lemma stop_inside : forall E n t i r f, env_ok E -> chars1 rfc_ftext n -> lined t -> ends is_wsp i -> any_field E (n ++ [58] ++ t ++ CRLF ++ i) = Ok (r, f) -> r = i \/ exists a b, t = a ++ CRLF ++ b.
Proof.
  intros E n t i r f HE Hn Ht Hi S.
  assert (N : near i i (n ++ [58] ++ t ++ CRLF ++ i) (n ++ [58] ++ t ++ CRLF ++ i)) by (exists (n ++ [58] ++ t); now rewrite <- !app_assoc).
  pose proof (lrel_self _ _ _ _ _ (hlocal_any_field i i Hi Hi E _ _ N) S) as L. apply later_self in L as [[z ->]| ->]; [right|now left].
  destruct (any_field_sound E _ _ _ HE S) as (c & X & Hc). apply field_ends in Hc as [u ->].
  assert (Y : (n ++ [58] ++ t) ++ CRLF = u ++ CRLF ++ z ++ CRLF) by (apply (app_inv_tail i); rewrite <- !app_assoc in *; exact X).
  destruct (lined_end (n ++ [58] ++ t) u (z ++ CRLF) (line_lined _ _ Hn Ht) Y) as [Z|(w & q & Z & Hw)]; [destruct z; discriminate|].
  assert (W : (n ++ [58]) ++ t = u ++ CRLF ++ z) by (apply (app_inv_tail CRLF); rewrite <- !app_assoc in *; exact Y).
  apply app_eq_app in W as (l & [[W1 W2]|[W1 W2]]); [|exists l, z; exact W2]. destruct l as [|y l]; [exists [], z; symmetry; exact W2|]. exfalso. injection W2 as <- _.
  assert (K : In 13 (n ++ [58])) by (rewrite W1; apply in_or_app; right; now left). apply in_app_or in K as [K|[K|[]]]; [|discriminate]. destruct Hn as [_ Hn]. unfold chars in Hn. rewrite Forall_forall in Hn. apply Hn in K. unfold rfc_ftext in K. lia.
Qed.
Lemma mime_legible : forall E x, env_ok E -> f_mime E = true -> debug E = false -> good_line x -> not_stopped x -> legible E x.
Proof.
  intros E [n t] HE HM HD [[Hn Ht] Hu] HS. split; [split; assumption|]. intros i Hi. unfold LineSpec.line_text. unfold not_stopped in HS. cbn [fst snd] in *. change (bs ":") with [58] in *. rewrite <- !app_assoc.
  destruct (clear_value_exists E t Ht Hu) as [v Hv]. destruct (lined_unblank t Ht Hu) as [y Hy]. destruct (clear_text_exists E t y Hy) as [v' Hv'].
  destruct (header_line E n t v i HE (or_introl HD) Hn Hv Hi) as [X|(x & r & g & X & Hx & Hg & S)]; [eauto|].
  assert (One : named_in stopping (n, t) -> r = i). { intros K. destruct (stop_inside E n t i r g HE Hn Ht Hi S) as [R|(a & b & Y)]; [exact R|]. exfalso. exact (HS K a b Y). }
  assert (Nm : forall N, kind g = Some N -> same_nocase n (bs N)).
  { intros N K. pose proof (any_field_not_trace E _ _ _ S) as T. destruct (any_field_sound E _ _ _ HE S) as (c & Ec & Hc). pose proof (field_ends _ _ _ Hc) as [u ->].
    destruct (app_eq_app (n ++ [58]) (t ++ CRLF ++ i) (u ++ CRLF) r) as (l & [[W1 W2]|[W1 W2]]); [rewrite <- !app_assoc in *; exact Ec| |].
    - destruct l as [|z l].
      + rewrite app_nil_r in W1. exfalso. change (u ++ CRLF) with (u ++ [13] ++ [10]) in W1. rewrite app_assoc in W1. apply app_inj_tail in W1 as [_ W1]. discriminate.
      + exfalso. assert (K2 : In 10 (n ++ [58])) by (rewrite W1; apply in_or_app; left; apply in_or_app; right; right; now left). apply in_app_or in K2 as [K2|[K2|[]]]; [|discriminate]. destruct Hn as [_ Hn]. unfold chars in Hn. rewrite Forall_forall in Hn. apply Hn in K2. unfold rfc_ftext in K2. lia.
    - rewrite W1 in Hc. rewrite <- app_assoc in Hc. destruct (field_named E n l g Hn Hc T) as [(c0 & v0 & -> & _)|(N' & K' & Hn' & _)]; [discriminate|]. congruence. }
  assert (Fin : forall f, mime_field E (n ++ [58] ++ t ++ CRLF) f -> exists f', any_field E (n ++ [58] ++ t ++ CRLF ++ i) = Ok (i, f')).
  { intros f Hf. destruct (mime_field_forward E HE HM HD _ f i Hf Hi) as (f' & Y & _). exists f'. rewrite <- !app_assoc in Y. exact Y. }
  assert (St : (exists N, kind g = Some N /\ In N stopping) \/ forall N, kind g = Some N -> ~ In N stopping).
  { destruct (kind g) as [N|]; [|right; discriminate]. destruct (in_dec string_dec N stopping) as [I|I]; [left; eauto|right; intros M J; injection J as <-; exact I]. }
  destruct St as [(N & K & I)|St]. { rewrite (One (ex_intro _ N (conj I (Nm N K)))) in S. eauto. }
  assert (D : structured_kind g \/ ~ structured_kind g) by (destruct g; cbn; auto). destruct D as [D|D].
  - assert (NK : forall l, g <> FKeywords l) by (intros l ->; apply (St "Keywords"%string eq_refl); cbn; tauto). destruct (any_field_halts E _ _ _ S D NK) as (c & Y & F).
    assert (N : near i i (n ++ [58] ++ t ++ CRLF ++ i) (n ++ [58] ++ t ++ CRLF ++ i)) by (exists (n ++ [58] ++ t); now rewrite <- !app_assoc).
    pose proof (lrel_self _ _ _ _ _ (hlocal_any_field i i Hi Hi E _ _ N) S) as L.
    assert (r = i) as ->. { apply (line_taken (n ++ [58] ++ t) i c r); auto; [now apply line_lined|now apply line_unblank|now rewrite <- !app_assoc]. }
    eauto.
  - destruct g; try (exfalso; now apply D); try (exfalso; eapply St; [reflexivity|cbn; tauto]).
    + pose proof (Nm _ eq_refl) as K. inversion Hx; subst; try discriminate. apply (Fin (FSubject v')). apply mime_clear; [|intros Z; exact Z]. apply clear_subject; [assumption|]. rewrite HM. now constructor.
    + pose proof (Nm _ eq_refl) as K. inversion Hx; subst; try discriminate. apply (Fin (FComments v')). apply mime_clear; [|intros Z; exact Z]. apply clear_comments; [assumption|]. rewrite HM. now constructor.
    + pose proof (Nm _ eq_refl) as K. inversion Hx; subst; try discriminate. apply (Fin (FContentDescription v')). apply mime_clear; [|intros Z; exact Z]. apply clear_content_description; [assumption|]. now constructor.
    + exfalso. pose proof (any_field_not_trace E _ _ _ S). discriminate.
Qed.
Lemma read_encoded : forall E x e, proper_line x -> read_as E x (FContentTransferEncoding e) -> same_nocase (fst x) (bs "Content-Transfer-Encoding").
Proof. intros E x e Hx Hr. exact (read_named E x _ _ Hx Hr eq_refl). Qed.
Lemma duplicate_repeated : forall E ls fs n, Forall proper_line ls -> Forall2 (read_as E) ls fs -> first_repeat fs n -> repeated n ls.
Proof.
  intros E ls fs n H L D. destruct D as (pre & f & post & -> & S & I & _). apply SoundMessage.in_pick in I as (g & I & S'). apply in_split in I as (p1 & p2 & ->).
  apply Forall2_app_inv_r in L as (l1 & l2 & L1 & L2 & ->). apply Forall2_app_inv_r in L1 as (l3 & l4 & _ & L1 & ->). inversion L1 as [|x ? l5 ? X _]; subst. inversion L2 as [|y ? l6 ? Y _]; subst.
  apply Forall_app in H as [H1 H2]. apply Forall_app in H1 as [_ H1]. inversion H1 as [|? ? X' _]; subst. inversion H2 as [|? ? Y' _]; subst.
  exists l3, x, l5, y, l6. split; [now rewrite <- app_assoc|]. split; eapply read_named; eauto.
Qed.
Theorem mime_lines : forall E ls r, env_ok E -> f_mime E = true -> debug E = false -> Forall good_line ls -> Forall not_stopped ls -> (f_trace E = true -> untraced_start ls) -> r = [] \/ (exists b, r = CRLF ++ b) ->
  (exists e, parse E (LineSpec.block_text ls ++ r) = Ok e) \/ (exists n, mandatory_name n /\ parse E (LineSpec.block_text ls ++ r) = Err (MissingHeader n)) \/
  (exists n, repeated n ls /\ parse E (LineSpec.block_text ls ++ r) = Err (DuplicateHeader n)) \/
  (exists w x, parse E (LineSpec.block_text ls ++ r) = Err (Unknown w) /\ r <> [] /\ In x ls /\ same_nocase (fst x) (bs "Content-Transfer-Encoding")).
Proof.
  intros E ls r HE HM HD H HS HT B.
  assert (G : Forall proper_line ls) by (eapply Forall_impl; [|exact H]; intros y [Z _]; exact Z).
  assert (HL : Forall (legible E) ls). { rewrite Forall_forall in *. intros x Hx. apply mime_legible; auto. }
  destruct (good_steps E ls r HE HL B) as (fs & L & S).
  assert (R : exists b, rest_text r b /\ (r = [] -> b = None)). { destruct B as [->|[b ->]]; [exists None; split; [constructor|auto]|exists (Some b); split; [constructor|discriminate]]. }
  destruct R as (b & R & Rn).
  assert (M : parse_message E (LineSpec.block_text ls ++ r) = Ok (fs, b)).
  { apply message_ok. exists r. split; [|split; [exact B|split; [exact R|congruence]]]. apply fields_of_steps; [exact HE| |exact S].
    intros T. apply no_starts_trace. apply start_no_trace; [exact G|now apply HT|]. destruct B as [->|[b' ->]]; [exact nil_no_trace|apply crlf_untraced]. }
  pose proof (assemble_spec E fs b) as A. rewrite (parse_assemble _ _ _ _ M). destruct (let* a := set_fields acc0 fs in finish E a b) as [e'|err'|k]; [eauto| |contradiction]. right.
  inversion A as [n D| | | |t w _ _ Hb Hd]; subst; [right; left; exists n; split; [eapply duplicate_repeated; eauto|reflexivity]|left; eexists; (split; [|reflexivity]); unfold mandatory_name; auto..|].
  right; right. destruct (only is_cte fs) as [c|] eqn:O; [|exfalso; exact (Hd t (transfer_7bit t))].
  assert (I : In c (pick is_cte fs)) by (unfold only in O; destruct (pick is_cte fs); [discriminate|injection O as ->; now left]). apply SoundMessage.in_pick in I as (g & I & Hg). destruct g; try discriminate. apply in_split in I as (p1 & p2 & ->).
  apply Forall2_app_inv_r in L as (l1 & l2 & _ & L & ->). inversion L as [|x ? l3 ? X _]; subst. apply Forall_app in G as [_ G]. inversion G; subst.
  exists w, x. split; [reflexivity|]. split; [intros Z; apply Rn in Z; discriminate|]. split; [apply in_or_app; right; now left|]. eapply read_encoded; eauto.
Qed.

(* C51: how any multipart text is cut into parts. *)
From Coq Require Import Lia ZifyBool ZifyNat ZifyN.
From Verif Require Import Base Combinators MimeFields Fields Entity Rfc5322 MultipartSpec CutSpec Post PercentProofs Steps MultipartProofs MultipartRound.

Lemma find_cut : forall x i p r, i = p ++ x ++ r -> find_sub x i = Some (length p) -> cut x i p r.
Proof.
  intros x i p r Hi F. split; [exact Hi|]. intros p' r' Hp. subst i. revert p' r' Hp F. induction p as [|c p IH]; intros p' r' Hp F; [cbn; lia|].
  destruct p' as [|c' p']; cbn [app] in Hp.
  - cbn [app] in F. rewrite Hp in F. rewrite find_sub_here in F by apply starts_with_app. discriminate.
  - injection Hp as _ Hp. cbn [app find_sub] in F. destruct (starts_with (c :: p ++ x ++ r) x); [discriminate|]. destruct (find_sub x (p ++ x ++ r)) as [k|] eqn:G; [|discriminate].
    cbn in F. injection F as ->. cbn [length]. specialize (IH p' r' Hp eq_refl). lia.
Qed.
Lemma cut_fun : forall x i p r p' r', cut x i p r -> cut x i p' r' -> p = p' /\ r = r'.
Proof.
  intros x i p r p' r' [H1 H2] [H1' H2']. specialize (H2 _ _ H1'). specialize (H2' _ _ H1). rewrite H1 in H1'. apply app_inj_len in H1' as [-> H]; [|lia]. split; [reflexivity|]. now apply app_inv_head in H.
Qed.
Lemma starts_dash : forall b i, starts_with i (dash_boundary b ++ CRLF) = false <-> forall s, i <> dash_boundary b ++ CRLF ++ s.
Proof.
  intros b i. split.
  - intros H s ->. rewrite (app_assoc (dash_boundary b) CRLF), starts_with_app in H. discriminate.
  - intros H. destruct (starts_with i (dash_boundary b ++ CRLF)) eqn:S; [|reflexivity]. exfalso. apply starts_with_spec in S as [r ->]. apply (H r). now rewrite <- app_assoc.
Qed.
Lemma before_boundary_progress : forall b j r a, before_boundary b j = Ok (r, a) -> length r < length j.
Proof.
  intros b j r a H. pose proof (post_before_boundary never b j) as P. rewrite H in P. destruct P as (c & -> & P). apply split_nonempty in P. destruct c; [congruence|]. rewrite app_length. cbn. lia.
Qed.
Lemma steps_sections : forall b i ps rest, steps (before_boundary b) i ps rest <-> sections b i ps rest.
Proof.
  intros b i ps rest. split.
  - intros H. induction H as [i e H|i r a l r' H L Hs IH].
    + destruct (before_boundary_spec b i) as [(r & -> & X)|[(_ & p & r & -> & _ & X)|(N & O & _)]]; try (rewrite X in H; discriminate). apply sections_end; [now apply starts_dash|exact O].
    + destruct (before_boundary_spec b i) as [(r0 & -> & X)|[(N & p & r0 & E & F & X)|(_ & _ & e & X)]]; rewrite X in H; inversion H; subst.
      * now apply sections_start.
      * eapply sections_next; [now apply starts_dash|now apply find_cut|exact IH].
  - intros H. induction H as [r ps rest H IH|i p r ps rest N C H IH|i N O].
    + destruct (before_boundary_spec b (dash_boundary b ++ CRLF ++ r)) as [(r0 & E & X)|[(N & _)|(N & _)]]; [|rewrite (app_assoc (dash_boundary b) CRLF), starts_with_app in N; discriminate..].
      apply app_inv_head in E. apply app_inv_head in E. subst r0. eapply steps_more; [exact X|exact (before_boundary_progress _ _ _ _ X)|exact IH].
    + apply starts_dash in N. destruct (before_boundary_spec b i) as [(r0 & -> & X)|[(_ & p0 & r0 & E & F & X)|(_ & O & _)]].
      * exfalso. rewrite (app_assoc (dash_boundary b) CRLF), starts_with_app in N. discriminate.
      * destruct (cut_fun _ _ _ _ _ _ C (find_cut _ _ _ _ E F)) as [<- <-]. eapply steps_more; [exact X|exact (before_boundary_progress _ _ _ _ X)|exact IH].
      * exfalso. apply O. destruct C as [C _]. now exists p, r.
    + apply starts_dash in N. destruct (before_boundary_spec b i) as [(r0 & -> & X)|[(_ & p0 & r0 & E & F & X)|(_ & _ & e & X)]].
      * exfalso. rewrite (app_assoc (dash_boundary b) CRLF), starts_with_app in N. discriminate.
      * exfalso. apply O. now exists p0, r0.
      * eapply steps_stop. exact X.
Qed.
Lemma sections_exist : forall b n i, length i < n -> exists ps rest, sections b i ps rest.
Proof.
  intros b n. induction n as [|n IH]; intros i L; [lia|]. destruct (before_boundary_spec b i) as [(r & -> & X)|[(N & p & r & E & F & X)|(N & O & _)]].
  - apply before_boundary_progress in X. destruct (IH r ltac:(lia)) as (ps & rest & H). exists ([] :: ps), rest. now constructor.
  - apply before_boundary_progress in X. destruct (IH r ltac:(lia)) as (ps & rest & H). exists (p :: ps), rest. eapply sections_next; [now apply starts_dash|exact (find_cut _ _ _ _ E F)|exact H].
  - exists [], i. apply sections_end; [now apply starts_dash|exact O].
Qed.
Lemma sections_many : forall b i ps rest, sections b i ps rest -> many (before_boundary b) i = Ok (rest, ps).
Proof. intros b i ps rest H. apply many_steps. now apply steps_sections. Qed.
Lemma sections_fun : forall b i ps rest ps' rest', sections b i ps rest -> sections b i ps' rest' -> ps = ps' /\ rest = rest'.
Proof. intros b i ps rest ps' rest' H H'. apply sections_many in H, H'. rewrite H in H'. now inversion H'. Qed.
Lemma cut_closing : forall b rest last epi, cut (closing_delimiter b) rest last epi -> before_closing_boundary b rest = Ok (epi, last).
Proof.
  intros b rest last epi C. destruct (before_closing_spec b rest) as [(p & r & E & F & X)|(O & _)].
  - destruct (cut_fun _ _ _ _ _ _ C (find_cut _ _ _ _ E F)) as [<- <-]. exact X.
  - exfalso. apply O. destruct C as [C _]. now exists last, epi.
Qed.
Lemma no_closing : forall b rest, ~ occurs (closing_delimiter b) rest -> before_closing_boundary b rest = Err (Unknown "closing boundary not found").
Proof. intros b rest O. unfold before_closing_boundary. rewrite find_closing_spec. apply find_sub_none in O. now rewrite O. Qed.
(* every text is cut in one way *)
Lemma cut_or_unclosed : forall b i, (exists parts, cut_parts b i parts) \/ unclosed b i.
Proof.
  intros b i. destruct (sections_exist b (S (length i)) i ltac:(lia)) as (ps & rest & H). destruct (before_closing_spec b rest) as [(p & r & E & F & X)|(O & _)].
  - left. destruct (ps ++ [p]) as [|preamble parts] eqn:L; [destruct ps; discriminate|]. exists parts. econstructor; [exact H|exact (find_cut _ _ _ _ E F)|exact L].
  - right. exists ps, rest. auto.
Qed.
Lemma cut_parts_parse : forall E b i parts (params : list (bytes * bytes)), map_get params (bs "boundary") = Some b -> cut_parts b i parts -> parse_multipart E i params = raw_entities E parts.
Proof.
  intros E b i parts params HB [ps rest last epi pre H C L]. unfold parse_multipart. rewrite HB. cbn [ok_or bind]. rewrite (sections_many _ _ _ _ H). cbn [bind]. rewrite (cut_closing _ _ _ _ C). cbn [bind].
  rewrite L. reflexivity.
Qed.
Lemma unclosed_parse : forall E b i (params : list (bytes * bytes)), map_get params (bs "boundary") = Some b -> unclosed b i -> parse_multipart E i params = Err (Unknown "closing boundary not found").
Proof. intros E b i params HB (ps & rest & H & O). unfold parse_multipart. rewrite HB. cbn [ok_or bind]. rewrite (sections_many _ _ _ _ H). cbn [bind]. now rewrite no_closing. Qed.
Lemma cut_parts_fun : forall b i parts parts', cut_parts b i parts -> cut_parts b i parts' -> parts = parts'.
Proof.
  intros b i parts parts' [ps rest last epi pre H C L] [ps' rest' last' epi' pre' H' C' L']. destruct (sections_fun _ _ _ _ _ _ H H') as [<- <-]. destruct (cut_fun _ _ _ _ _ _ C C') as [<- _]. congruence.
Qed.
Lemma cut_not_unclosed : forall b i parts, cut_parts b i parts -> ~ unclosed b i.
Proof.
  intros b i parts [ps rest last epi pre H C L] (ps' & rest' & H' & O). destruct (sections_fun _ _ _ _ _ _ H H') as [<- <-]. apply O. destruct C as [C _]. now exists last, epi.
Qed.
(* what is returned for any text *)
Lemma multipart_exact : forall E b i (params : list (bytes * bytes)) es, map_get params (bs "boundary") = Some b ->
  parse_multipart E i params = Ok es <-> exists parts, cut_parts b i parts /\ Forall2 (fun p e => raw_entity E p = Ok e) parts es.
Proof.
  intros E b i params es HB. destruct (cut_or_unclosed b i) as [[parts H]|H].
  - rewrite (cut_parts_parse E b i parts params HB H), raw_entities_ok. split; [eauto|]. intros (parts' & H' & F). now rewrite (cut_parts_fun _ _ _ _ H H').
  - rewrite (unclosed_parse E b i params HB H). split; [discriminate|]. intros (parts & H' & _). now apply cut_not_unclosed in H'.
Qed.
Lemma multipart_outcome : forall E b i (params : list (bytes * bytes)), map_get params (bs "boundary") = Some b ->
  (exists parts, cut_parts b i parts /\ parse_multipart E i params = raw_entities E parts) \/ (unclosed b i /\ parse_multipart E i params = Err (Unknown "closing boundary not found")).
Proof. intros E b i params HB. destruct (cut_or_unclosed b i) as [[parts H]|H]; [left|right]; eauto using cut_parts_parse, unclosed_parse. Qed.

(* ---- the epilogue ---- *)
Section Epilogue.
Variable b : bytes.
Hypothesis Hb : ~ In 13%N b.
Lemma dash_no_cr : ~ In 13%N (dash_boundary b).
Proof. intros H. unfold dash_boundary in H. apply in_app_or in H as [H|H]; [|contradiction]. cbn in H. intuition discriminate. Qed.
Definition shares (t : bytes) : Prop := exists s, CRLF ++ t = s ++ CRLF ++ dash_boundary b.
(* the places of a text without CR, then CRLF, where a CR is *)
Lemma one_cr : forall d x y, ~ In 13%N d -> d ++ CRLF = x ++ 13%N :: y -> x = d /\ y = [10%N].
Proof.
  intros d x y Hd. revert x. induction d as [|c d IH]; intros x E.
  - destruct x as [|a [|a' [|a'' x]]]; cbn in E; inversion E; auto; destruct x; discriminate.
  - destruct x as [|a x]; cbn in E; injection E as E1 E; [subst; exfalso; apply Hd; now left|]. subst a. destruct (IH (fun X => Hd (or_intror X)) x E) as [-> ->]. auto.
Qed.
Lemma delimiter_cr : forall x y, delimiter b = x ++ 13%N :: y -> x = [] \/ x = CRLF ++ dash_boundary b.
Proof.
  intros x y E. unfold delimiter in E. destruct x as [|a [|a' x]]; [now left| |].
  - cbn in E. injection E as _ E _. discriminate.
  - cbn in E. injection E as <- <- E. right. fold (CRLF) in E. apply (one_cr (dash_boundary b) x y dash_no_cr) in E as [-> _]. reflexivity.
Qed.
Lemma closing_no_delimiter : forall epi z r, ~ occurs (delimiter b) (CRLF ++ epi) -> closing_delimiter b ++ epi <> z ++ delimiter b ++ r.
Proof.
  intros epi z r O E. unfold closing_delimiter in E. rewrite <- !app_assoc in E. destruct z as [|a [|a' z]].
  - rewrite app_nil_l in E. unfold delimiter in E. rewrite <- !app_assoc in E. apply app_inv_head in E. apply app_inv_head in E. discriminate.
  - cbn in E. injection E as _ E _. discriminate.
  - assert (E' : dash_boundary b ++ bs "--" ++ CRLF ++ epi = z ++ delimiter b ++ r).
    { change (13%N :: 10%N :: (dash_boundary b ++ bs "--" ++ CRLF ++ epi) = a :: a' :: (z ++ delimiter b ++ r)) in E. now inversion E. }
    clear E. rename E' into E.
    assert (N : ~ In 13%N (dash_boundary b ++ bs "--")). { intros H. apply in_app_or in H as [H|H]; [now apply dash_no_cr|]. cbn in H. intuition discriminate. }
    rewrite app_assoc in E. apply app_eq_app in E as (l & [[E1 E2]|[E1 E2]]).
    + destruct l as [|c l]; [apply O; exists [], r; now rewrite app_nil_l in *|]. unfold delimiter in E2. cbn in E2. injection E2 as <- _. apply N. rewrite E1. apply in_or_app. right. now left.
    + apply O. exists l, r. exact E2.
Qed.
(* a delimiter in such a text is before the closing delimiter *)
Lemma delimiter_before : forall t epi p r, ~ shares t -> ~ occurs (delimiter b) (CRLF ++ epi) -> t ++ closing_delimiter b ++ epi = p ++ delimiter b ++ r ->
  exists t', t = p ++ delimiter b ++ t' /\ r = t' ++ closing_delimiter b ++ epi.
Proof.
  intros t epi p r HS O E. apply app_eq_app in E as (l & [[-> E]|[-> E]]).
  - pose proof E as E0. apply app_eq_app in E as (l' & [[E1 E2]|[-> E2]]).
    + destruct l' as [|c l'].
      * exists []. rewrite app_nil_r in E1. subst l. rewrite app_nil_r. split; [reflexivity|]. now symmetry.
      * exfalso. unfold closing_delimiter in E2. cbn in E2. injection E2 as <- _. destruct (delimiter_cr l l' E1) as [->| ->].
        -- exact (closing_no_delimiter epi [] r O (eq_sym E0)).
        -- apply HS. exists (CRLF ++ p). now rewrite <- app_assoc.
    + exists l'. split; [reflexivity|exact E2].
  - exfalso. exact (closing_no_delimiter epi l r O E).
Qed.
Lemma dash_before : forall t epi r, ~ shares t -> t ++ closing_delimiter b ++ epi = dash_boundary b ++ CRLF ++ r -> exists t', t = dash_boundary b ++ CRLF ++ t' /\ r = t' ++ closing_delimiter b ++ epi.
Proof.
  intros t epi r HS E. rewrite (app_assoc (dash_boundary b)) in E. apply app_eq_app in E as (l & [[-> E]|[E1 E]]).
  - exists l. split; [now rewrite <- app_assoc|exact E].
  - destruct l as [|c l]; [exists []; rewrite app_nil_r in E1; subst t; rewrite app_nil_r; split; [reflexivity|now symmetry]|]. exfalso. unfold closing_delimiter in E. cbn in E. injection E as <- _.
    apply (one_cr _ _ _ dash_no_cr) in E1 as [-> _]. apply HS. exists []. reflexivity.
Qed.
Lemma shares_app : forall x t, ~ shares (x ++ CRLF ++ t) -> ~ shares t.
Proof. intros x t H [s S]. apply H. exists (CRLF ++ x ++ s). now rewrite S, <- !app_assoc. Qed.
Lemma sections_epilogue : forall epi epi', ~ occurs (delimiter b) (CRLF ++ epi) -> ~ occurs (delimiter b) (CRLF ++ epi') -> forall i ps rest, sections b i ps rest -> forall t, ~ shares t ->
  i = t ++ closing_delimiter b ++ epi -> exists t', rest = t' ++ closing_delimiter b ++ epi /\ sections b (t ++ closing_delimiter b ++ epi') ps (t' ++ closing_delimiter b ++ epi').
Proof.
  intros epi epi' O O' i ps rest H.
  assert (NS : forall t, ~ shares t -> (forall s, t ++ closing_delimiter b ++ epi <> dash_boundary b ++ CRLF ++ s) -> forall s, t ++ closing_delimiter b ++ epi' <> dash_boundary b ++ CRLF ++ s).
  { intros t HS N s E. destruct (dash_before _ _ _ HS E) as (t' & -> & _). apply (N (t' ++ closing_delimiter b ++ epi)). now rewrite <- !app_assoc. }
  induction H as [r ps rest H IH|i p r ps rest N C H IH|i N NO]; intros t HS E.
  - symmetry in E. destruct (dash_before _ _ _ HS E) as (t1 & -> & ->). destruct (IH t1) as (t' & -> & Hs); [eapply shares_app; exact HS|reflexivity|]. exists t'. split; [reflexivity|].
    rewrite <- !app_assoc. now constructor.
  - subst i. pose proof C as C0. destruct C as [C1 C2]. destruct (delimiter_before _ _ _ _ HS O C1) as (t1 & -> & ->).
    destruct (IH t1) as (t' & -> & Hs); [unfold delimiter in HS; rewrite <- !app_assoc in HS; rewrite !app_assoc in HS; rewrite <- (app_assoc _ CRLF t1) in HS; eapply shares_app; exact HS|reflexivity|]. exists t'. split; [reflexivity|].
    eapply sections_next; [now apply NS| |exact Hs]. split; [now rewrite <- !app_assoc|]. intros p' r' E. destruct (delimiter_before _ _ _ _ HS O' E) as (t2 & E2 & _).
    apply (C2 p' (t2 ++ closing_delimiter b ++ epi)). rewrite E2, <- !app_assoc. reflexivity.
  - subst i. exists t. split; [reflexivity|]. apply sections_end; [now apply NS|]. intros (p & r & E). destruct (delimiter_before _ _ _ _ HS O' E) as (t2 & E2 & _). apply NO. exists p, (t2 ++ closing_delimiter b ++ epi).
    rewrite E2, <- !app_assoc. reflexivity.
Qed.
Lemma closing_within : forall t epi epi' q z, length q <= length t -> t ++ closing_delimiter b ++ epi = q ++ closing_delimiter b ++ z -> exists z', t ++ closing_delimiter b ++ epi' = q ++ closing_delimiter b ++ z'.
Proof.
  intros t epi epi' q z L E. rewrite !app_assoc in E. apply app_eq_app in E as (l & [[E _]|[E _]]).
  - exists (l ++ epi'). rewrite !app_assoc. now rewrite E, <- !app_assoc.
  - assert (l = []) as ->. { apply (f_equal (@length byte)) in E. rewrite !app_length in E. destruct l; [reflexivity|]. cbn in E. unfold bytes, byte in *. lia. }
    rewrite app_nil_r in E. exists epi'. rewrite !app_assoc. now rewrite E.
Qed.
(* nothing after the closing delimiter matters, unless it contains a delimiter *)
Lemma cut_epilogue : forall t epi epi' parts, ~ shares t -> ~ occurs (delimiter b) (CRLF ++ epi) -> ~ occurs (delimiter b) (CRLF ++ epi') ->
  cut_parts b (t ++ closing_delimiter b ++ epi) parts -> cut_parts b (t ++ closing_delimiter b ++ epi') parts.
Proof.
  intros t epi epi' parts HS O O' [ps rest last e pre H C L]. destruct (sections_epilogue epi epi' O O' _ _ _ H t HS eq_refl) as (t' & -> & H').
  destruct C as [C1 C2]. assert (Lq : length last <= length t') by (eapply C2; reflexivity). destruct (closing_within t' epi epi' last e Lq C1) as (z' & Z).
  econstructor; [exact H'| |exact L]. split; [exact Z|]. intros p r E. destruct (le_lt_dec (length last) (length p)) as [G|G]; [exact G|]. exfalso.
  destruct (closing_within t' epi' epi p r ltac:(lia) E) as (z & E'). apply C2 in E'. lia.
Qed.
(* with a delimiter in it, there are more sections *)
Lemma sections_more : forall e i ps rest, sections b i ps rest -> forall t, ~ shares t -> i = t ++ closing_delimiter b ->
  exists more rest', sections b (t ++ closing_delimiter b ++ e) (ps ++ more) rest' /\ (occurs (delimiter b) (CRLF ++ e) -> more <> []).
Proof.
  intros e i ps rest H. assert (N0 : ~ occurs (delimiter b) (CRLF ++ [])). { intros (p & r & X). apply (f_equal (@length byte)) in X. unfold delimiter, dash_boundary in X. rewrite !app_length in X. cbn in X. lia. }
  assert (NS : forall t, ~ shares t -> (forall s, t ++ closing_delimiter b <> dash_boundary b ++ CRLF ++ s) -> forall s, t ++ closing_delimiter b ++ e <> dash_boundary b ++ CRLF ++ s).
  { intros t HS N s E. destruct (dash_before _ _ _ HS E) as (t' & -> & _). apply (N (t' ++ closing_delimiter b)). now rewrite <- !app_assoc. }
  induction H as [r ps rest H IH|i p r ps rest N C H IH|i N NO]; intros t HS E.
  - symmetry in E. rewrite <- (app_nil_r (closing_delimiter b)) in E. destruct (dash_before _ _ _ HS E) as (t1 & -> & ->). destruct (IH t1) as (more & rest' & Hs & M); [eapply shares_app; exact HS|now rewrite app_nil_r|]. exists more, rest'. split; [|exact M].
    rewrite <- !app_assoc. now constructor.
  - subst i. destruct C as [C1 C2]. pose proof C1 as C3. rewrite <- (app_nil_r (closing_delimiter b)) in C3. destruct (delimiter_before _ _ _ _ HS N0 C3) as (t1 & -> & ->).
    destruct (IH t1) as (more & rest' & Hs & M); [unfold delimiter in HS; rewrite <- !app_assoc in HS; rewrite !app_assoc in HS; rewrite <- (app_assoc _ CRLF t1) in HS; eapply shares_app; exact HS|now rewrite app_nil_r|]. exists more, rest'. split; [|exact M].
    cbn [app]. eapply sections_next; [now apply NS| |exact Hs]. split; [now rewrite <- !app_assoc|]. intros p' r' X. destruct (le_lt_dec (length p) (length p')) as [G|G]; [exact G|]. exfalso.
    assert (X' : exists z, p ++ delimiter b ++ t1 = p' ++ delimiter b ++ z).
    { rewrite <- !app_assoc in X. rewrite !(app_assoc _ (delimiter b)) in X. apply app_eq_app in X as (l & [[X1 X2]|[X1 X2]]).
      - exists (l ++ t1). rewrite !app_assoc. rewrite X1, <- !app_assoc. reflexivity.
      - exfalso. apply (f_equal (@length byte)) in X1. rewrite !app_length in X1. unfold bytes, byte in *. lia. }
    destruct X' as (z & X'). apply (Nat.lt_irrefl (length p)). eapply Nat.le_lt_trans; [|exact G]. apply (C2 p' (z ++ closing_delimiter b)). rewrite X', <- !app_assoc. reflexivity.
  - subst i. destruct (sections_exist b (S (length (t ++ closing_delimiter b ++ e))) (t ++ closing_delimiter b ++ e) ltac:(lia)) as (more & rest' & Hs). exists more, rest'. split; [exact Hs|].
    intros (p & r & O) ->. inversion Hs as [| |? _ NO']; subst. apply NO'. exists (t ++ CRLF ++ dash_boundary b ++ bs "--" ++ p), r. unfold closing_delimiter. rewrite <- !app_assoc. now rewrite O.
Qed.
Lemma cut_epilogue_iff : forall t e parts, ~ shares t -> cut_parts b (t ++ closing_delimiter b) parts -> cut_parts b (t ++ closing_delimiter b ++ e) parts <-> ~ occurs (delimiter b) (CRLF ++ e).
Proof.
  intros t e parts HS C. assert (N0 : ~ occurs (delimiter b) (CRLF ++ [])). { intros (p & r & X). apply (f_equal (@length byte)) in X. unfold delimiter, dash_boundary in X. rewrite !app_length in X. cbn in X. lia. }
  split.
  - intros C' O. destruct C as [ps rest last e0 pre H C L]. destruct (sections_more e _ _ _ H t HS eq_refl) as (more & rest' & H' & M). specialize (M O). destruct C' as [ps2 rest2 last2 e2 pre2 H2 C2 L2].
    destruct (sections_fun _ _ _ _ _ _ H2 H') as [-> ->]. apply (f_equal (@length bytes)) in L, L2. rewrite !app_length in L. rewrite !app_length in L2. cbn [length] in L, L2. destruct more; [congruence|]. cbn [length] in L2. lia.
  - intros O. apply (cut_epilogue t [] e parts HS N0 O). now rewrite app_nil_r.
Qed.
End Epilogue.
Lemma epilogue_iff : forall E b t e es (params : list (bytes * bytes)), ~ In 13%N b -> map_get params (bs "boundary") = Some b ->
  (forall s, CRLF ++ t <> s ++ CRLF ++ dash_boundary b) -> parse_multipart E (t ++ closing_delimiter b) params = Ok es ->
  parse_multipart E (t ++ closing_delimiter b ++ e) params = Ok es <-> ~ occurs (delimiter b) (CRLF ++ e).
Proof.
  intros E b t e es params Hb HB HS P. assert (HS' : ~ shares b t) by (intros [s S]; exact (HS s S)). apply (multipart_exact E b _ _ _ HB) in P as (parts & C & F). split.
  - intros P' O. apply (multipart_exact E b _ _ _ HB) in P' as (parts' & C' & F'). destruct C as [ps rest last e0 pre H C L]. destruct (sections_more b Hb e _ _ _ H t HS' eq_refl) as (more & rest' & H' & M). specialize (M O). destruct C' as [ps2 rest2 last2 e2 pre2 H2 C2 L2].
    destruct (sections_fun _ _ _ _ _ _ H2 H') as [-> ->]. apply (f_equal (@length bytes)) in L, L2. rewrite !app_length in L. rewrite !app_length in L2. cbn [length] in L, L2. assert (LF : forall l l', Forall2 (fun p e => raw_entity E p = Ok e) l l' -> length l = length l') by (intros l l' X; induction X; cbn; congruence). apply LF in F. apply LF in F'. destruct more; [congruence|]. cbn [length] in L2. unfold bytes, byte in *. lia.
  - intros O. apply (multipart_exact E b _ _ _ HB). exists parts. split; [|exact F]. now apply cut_epilogue_iff.
Qed.
Lemma epilogue_any_text : forall E b t epi epi' (params : list (bytes * bytes)), ~ In 13%N b -> map_get params (bs "boundary") = Some b ->
  (forall s, CRLF ++ t <> s ++ CRLF ++ dash_boundary b) -> ~ occurs (delimiter b) (CRLF ++ epi) -> ~ occurs (delimiter b) (CRLF ++ epi') ->
  parse_multipart E (t ++ closing_delimiter b ++ epi) params = parse_multipart E (t ++ closing_delimiter b ++ epi') params.
Proof.
  intros E b t epi epi' params Hb HB HS O O'. assert (HS' : ~ shares b t) by (intros [s S]; exact (HS s S)).
  destruct (multipart_outcome E b (t ++ closing_delimiter b ++ epi) params HB) as [(parts & C & ->)|((ps & rest & H & N) & _)].
  - symmetry. apply (cut_parts_parse E b); [exact HB|]. exact (cut_epilogue b Hb t epi epi' parts HS' O O' C).
  - exfalso. destruct (sections_epilogue b Hb epi epi' O O' _ _ _ H t HS' eq_refl) as (t' & -> & _). apply N. now exists t', epi.
Qed.
Lemma entity_multipart_exact : forall E r x, e_mime_type r = CMultipart -> entity E r = Ok x <->
  exists b parts es, map_get (e_parameters r) (bs "boundary") = Some b /\ cut_parts b (e_value r) parts /\ Forall2 (fun p e => raw_entity E p = Ok e) parts es /\ x = EMultipart (e_subtype r) es.
Proof.
  intros E r x M. unfold entity. rewrite M. destruct (map_get (e_parameters r) (bs "boundary")) as [b|] eqn:G.
  - destruct (parse_multipart E (e_value r) (e_parameters r)) as [l|e|] eqn:P; cbn [bind].
    + apply (multipart_exact E b _ _ _ G) in P as (parts & C & F). split.
      * intros H. inversion H. exists b, parts, l. auto.
      * intros (b' & parts' & es & G' & C' & F' & ->). injection G' as <-. rewrite (cut_parts_fun _ _ _ _ C' C) in F'.
        do 2 f_equal. apply raw_entities_ok in F, F'. congruence.
    + split; [discriminate|]. intros (b' & parts' & es & G' & C' & F' & ->). injection G' as <-.
      assert (X : parse_multipart E (e_value r) (e_parameters r) = Ok es) by (apply (multipart_exact E b _ _ _ G); eauto). congruence.
    + split; [discriminate|]. intros (b' & parts' & es & G' & C' & F' & ->). injection G' as <-.
      assert (X : parse_multipart E (e_value r) (e_parameters r) = Ok es) by (apply (multipart_exact E b _ _ _ G); eauto). congruence.
  - unfold parse_multipart. rewrite G. cbn. split; [discriminate|]. intros (b' & parts' & es & G' & _). discriminate.
Qed.

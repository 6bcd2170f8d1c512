(* When a text is copied: exactly when bytes are dropped after the first one that is kept. *)
From Verif Require Import Base Utf8 CharSets Combinators Whitespace QuotedString Common StringCow StringSpec StringFacts Utf8Facts Rfc5322 Post SoundBase Address MimeFields Fields Message Entity Email Envs EnvOk ZeroCopy ZeroSpec ZeroFacts ZeroStrings.
From Coq Require Import Lia.

(* the dropped bytes d in front of w *)
Definition opening (es : bool) (d w : bytes) : Prop :=
  d = [] /\ (forall x r, w = x :: r -> x <> CR /\ (es = true -> x <> BACKSLASH)) \/
  d = CRLF /\ (exists r, w = CRLF ++ r) \/
  d = [BACKSLASH] /\ es = true /\ (exists r, w = BACKSLASH :: r).
Lemma opening_app : forall es d w u, w <> [] -> opening es d w -> opening es d (w ++ u).
Proof.
  intros es d w u NE [[-> H]|[[-> [r ->]]|(-> & H & [r ->])]].
  - left. split; [reflexivity|]. intros x r E. destruct w as [|y w]; [easy|]. injection E as <- _. exact (H y w eq_refl).
  - right. left. split; [reflexivity|]. exists (r ++ u). now rewrite app_assoc.
  - right. right. split; [reflexivity|]. split; [exact H|]. now exists (r ++ u).
Qed.
Lemma opening_forms : forall es d w v, opening es d w -> length d + length v < length w -> ~ kept_together es w v.
Proof.
  intros es d w v H HL [->|[->|[He ->]]]; [lia|..].
  - rewrite app_length in HL. cbn in HL. destruct H as [[-> H]|[[-> _]|(-> & _ & [r H])]]; [|cbn in HL; lia|discriminate]. destruct (H CR (LF :: v) eq_refl) as [H' _]. now apply H'.
  - cbn in HL. destruct H as [[-> H]|[[-> [r H]]|(-> & _ & _)]]; [|discriminate|cbn in HL; lia]. destruct (H BACKSLASH v eq_refl) as [_ H']. now apply H'.
Qed.

Section Place.
Variable M : place.
Variable D : bytes.
Notation m := (memory M).
Let L := S (length D).
Lemma HQ : forall a w j, D = a ++ w ++ j -> L <= length j -> quiet w.
Proof. intros a w j H HL. assert (length D = length (a ++ w ++ j)) by congruence. rewrite !app_length in *. unfold L in HL. lia. Qed.
Lemma HN : False -> forall a w j, D = a ++ w ++ j -> L <= length j -> ~ In 91%N w.
Proof. easy. Qed.
Hypothesis HT : total M = length D.
Hypothesis HA : at_address m (base M) D.
Notation text_ok := (text_ok M D).
Notation full := (full M D).
Notation here := (here M).
Notation tail := (tail D).
Notation does := (does D).

(* v at its place, or an owned string *)
Definition exactly (es : bool) (i j : bytes) (c : cow) (v : bytes) : Prop :=
  text_ok c v /\ exists w, i = w ++ j /\
  (w = [] /\ v = [] /\ (exists p, c = Borrowed p 0) \/
   w <> [] /\ v <> [] /\ exists d, opening es d w /\
     (c = Borrowed (here (v ++ j)) (length v) /\ w = d ++ v \/ (exists s, c = Owned s) /\ length d + length v < length w)).
Lemma exactly_iff : forall es i j c v, exactly es i j c v -> exists w, i = w ++ j /\ (is_borrowed c <-> kept_together es w v).
Proof.
  intros es i j c v (_ & w & -> & H). exists w. split; [reflexivity|]. destruct H as [(-> & -> & [p ->])|(N1 & N2 & d & O & [[-> ->]|[[s ->] HL]])].
  - split; [left; reflexivity|intros; exact I].
  - split; [|intros; exact I]. intros _. destruct O as [[-> _]|[[-> _]|(-> & He & _)]]; [left; reflexivity|right; left; reflexivity|right; right; now split].
  - split; [intros []|]. intros K. exact (opening_forms _ _ _ _ O HL K).
Qed.
Lemma exactly_empty : forall es i, exactly es i i (z_empty M) [].
Proof. intros es i. split; [apply text_empty|]. exists []. split; [reflexivity|]. left. split; [reflexivity|]. split; [reflexivity|]. now exists (literal M). Qed.
Lemma borrowed_len : forall p n v, text_ok (Borrowed p n) v -> length v = n.
Proof. intros p n v [[_ [H _]] _]. exact H. Qed.
Lemma add_exactly : forall es i j k c1 v1 c2 v2, tail i -> exactly es i j c1 v1 -> exactly es j k c2 v2 -> exists s, add_string m c1 c2 = Ok s /\ exactly es i k s (v1 ++ v2).
Proof.
  intros es i j k c1 v1 c2 v2 Hi [T1 (w1 & E1 & H1)] [T2 (w2 & E2 & H2)]. destruct (add_text _ _ _ _ _ _ T1 T2) as (s & Hs & Ts). exists s. split; [exact Hs|]. split; [exact Ts|].
  exists (w1 ++ w2). split; [subst; apply app_assoc|].
  destruct H1 as [(-> & -> & [p1 ->])|(N1 & M1 & d1 & O1 & H1)].
  { cbn [app] in *. subst i. destruct H2 as [(-> & -> & [p2 ->])|(N2 & M2 & d2 & O2 & [[-> W2]|[[s2 ->] HL]])].
    - left. cbn in Hs. injection Hs as <-. split; [reflexivity|]. split; [reflexivity|]. now exists p1.
    - right. split; [exact N2|]. split; [exact M2|]. exists d2. split; [exact O2|]. left. split; [|exact W2]. cbn [add_string] in Hs. destruct (Nat.eqb_spec (length v2) 0) as [Z|Z]; [destruct v2; [easy|discriminate]|]. cbn [Nat.eqb] in Hs. now injection Hs as <-.
    - right. split; [exact N2|]. split; [exact M2|]. exists d2. split; [exact O2|]. right. split; [|exact HL]. cbn in Hs. injection Hs as <-. now exists s2. }
  destruct H2 as [(-> & -> & [p2 ->])|(N2 & M2 & d2 & O2 & H2)].
  { cbn [app] in E2. subst j. rewrite !app_nil_r in *. right. split; [exact N1|]. split; [exact M1|]. exists d1. split; [exact O1|]. destruct H1 as [[-> W1]|[[s1 ->] HL]]; [left|right].
    - cbn in Hs. injection Hs as <-. now split.
    - cbn in Hs. injection Hs as <-. split; [|exact HL]. now exists (s1 ++ []). }
  right. assert (NW : w1 ++ w2 <> []) by (destruct w1; easy). assert (NV : v1 ++ v2 <> []) by (destruct v1; easy). split; [exact NW|]. split; [exact NV|]. exists d1. split; [exact (opening_app _ _ _ _ N1 O1)|].
  assert (L2 : length v2 <= length w2) by (destruct H2 as [[_ ->]|[_ HL]]; rewrite ?app_length; lia).
  destruct H1 as [[-> W1]|[[s1 ->] HL]].
  - destruct H2 as [[-> W2]|[[s2 ->] HL]].
    + assert (X1 : Nat.eqb (length v1) 0 = false) by (destruct v1; easy). assert (X2 : Nat.eqb (length v2) 0 = false) by (destruct v2; easy). cbn [add_string] in Hs. rewrite X1, X2 in Hs.
      assert (R1 : tail (v1 ++ j)) by (apply (tail_after D i); [exact Hi|]; exists d1; subst; now rewrite <- app_assoc).
      assert (R2 : tail (d2 ++ v2 ++ k)) by (apply (tail_after D (v1 ++ j)); [exact R1|]; exists v1; subst; now rewrite <- app_assoc).
      pose proof (here_app M D HT L False HQ HN v1 j R1) as A1. pose proof (here_app M D HT L False HQ HN d2 (v2 ++ k) R2) as A2. rewrite E2, W2, <- app_assoc in A1. rewrite E2, W2, <- app_assoc in Hs.
      destruct (N.eqb_spec (here (v1 ++ d2 ++ v2 ++ k) + N.of_nat (length v1)) (here (v2 ++ k))) as [Q|Q].
      * left. assert (d2 = []) as -> by (destruct d2; [reflexivity|exfalso; rewrite Q in A1; cbn [length] in A2; lia]). cbn [app] in *. apply from_slice_is in Hs as ->. split; [rewrite app_length, <- app_assoc; reflexivity|]. subst w1 w2. now rewrite app_assoc.
      * right. assert (d2 <> []) by (intros ->; apply Q; exact (eq_sym A1)). destruct (contents m _); try discriminate. cbn [bind] in Hs. destruct (contents m _); try discriminate. injection Hs as <-. split; [eexists; reflexivity|].
        subst w1 w2. rewrite !app_length. destruct d2; [easy|]. cbn. lia.
    + right. cbn [add_string] in Hs. destruct (contents m (Borrowed _ _)); try discriminate. cbn in Hs. injection Hs as <-. split; [eexists; reflexivity|]. subst w1. rewrite !app_length. destruct O2 as [[-> _]|[[-> _]|(-> & _)]]; cbn in HL; lia.
  - right. cbn [add_string] in Hs. destruct (contents m c2); try discriminate. cbn in Hs. injection Hs as <-. split; [eexists; reflexivity|]. rewrite !app_length. lia.
Qed.
Lemma exactly_slice : forall es x v j, tail ((x :: v) ++ j) -> utf8_valid (x :: v) = true -> x <> CR -> (es = true -> x <> BACKSLASH) -> exactly es ((x :: v) ++ j) j (Borrowed (here ((x :: v) ++ j)) (length (x :: v))) (x :: v).
Proof.
  intros es x v j Hi U N1 N2. split; [exact (text_slice M D HT HA L False HQ HN _ _ Hi U)|]. exists (x :: v). split; [reflexivity|]. right. split; [easy|]. split; [easy|]. exists []. split; [|left; now split].
  left. split; [reflexivity|]. intros y r [= <- <-]. now split.
Qed.
Lemma exactly_taken : forall es f i j s v, tail i -> (forall x, f x = true -> x <> CR /\ (es = true -> x <> BACKSLASH)) -> slice1_of M D f i j s v -> exactly es i j (borrow s) v.
Proof.
  intros es f i j s v Hi Hf [((T & E & _) & -> & F) NE]. destruct v as [|x v]; [easy|]. inversion F as [|? ? Fx _]; subst. destruct (Hf x Fx). apply exactly_slice; [exact Hi|apply T|assumption..].
Qed.
Lemma wsp_no : forall es x, is_wsp x = true -> x <> CR /\ (es = true -> x <> BACKSLASH).
Proof. intros es x H. unfold is_wsp in H. split; [intros ->; discriminate|intros _ ->; discriminate]. Qed.
Lemma qtext_no : forall es x, is_qtext x = true -> x <> CR /\ (es = true -> x <> BACKSLASH).
Proof. intros es x H. split; [intros ->; discriminate|intros _ ->; discriminate]. Qed.
Lemma vchar_no : forall x, is_vchar x = true -> x <> CR /\ (false = true -> x <> BACKSLASH).
Proof. intros x H. split; [intros ->; discriminate|discriminate]. Qed.
Notation T1 := (take_while1_does M D HT HA L False HQ HN).
Notation T0 := (take_while_does M D HT HA L False HQ HN).
Notation TG := (tag_does M D HT L False HQ HN).
Ltac after_chain := first [assumption|apply after_refl|match goal with H : after ?i ?j |- after ?i ?k => apply (after_trans _ _ _ H); after_chain end].
Ltac leaf := cbn [rel]; split; [reflexivity|]; split; [cbn [fst]; after_chain|]; cbn [fst snd].
Lemma fws_exactly : forall es, does (z_fws M) fws (exactly es).
Proof.
  intros es i Hi. unfold z_fws, fws. eapply bind_p; [apply optional_does, pair_does; [apply T0|apply TG]|exact Hi|]. intros j b b' Hj Ha HR. cbn beta iota.
  eapply bind_p; [apply T1|exact Hj|]. intros k [p n] v Hk Hjk HS. cbn beta iota. pose proof (exactly_taken es _ _ _ _ _ Hj (wsp_no es) HS) as X. cbn [borrow] in X. destruct HS as [((Tv & Ev & _) & Es & Fv) NE]. destruct b as [[sl u]|], b' as [[b u']|]; try contradiction; cbn [fst snd] in HR.
  - destruct HR as (j0 & Ha0 & Hj0 & ((Tb & Eb & _) & -> & Fb) & E0). apply rel_then. rewrite add_str_same. destruct (add_text _ _ _ _ _ _ Tb Tv) as (s & Hs & Hx). cbn [borrow] in *. exists s. split; [exact Hs|]. leaf. split; [exact Hx|].
    injection Es as -> ->. exists (b ++ CRLF ++ v). split; [rewrite <- !app_assoc; subst; reflexivity|]. right. split; [destruct b; easy|]. split; [destruct b; [exact NE|easy]|].
    assert (X2 : Nat.eqb (length v) 0 = false) by (destruct v; easy). cbn [add_string] in Hs. rewrite X2 in Hs. destruct b as [|x b].
    + exists CRLF. split; [right; left; split; [reflexivity|now exists v]|]. left. cbn [length Nat.eqb] in Hs. injection Hs as <-. split; [now rewrite Ev|reflexivity].
    + exists []. split; [left; split; [reflexivity|]; intros y r [= <- <-]; inversion Fb; subst; now apply wsp_no|]. right. split; [|cbn; rewrite !app_length; cbn; lia]. cbn [length Nat.eqb] in Hs.
      assert (Hi' : tail ((x :: b) ++ CRLF ++ j)) by (rewrite <- E0, <- Eb; exact Hi). pose proof (here_app M D HT L False HQ HN (x :: b) (CRLF ++ j) Hi') as A1. assert (Hj1 : tail (CRLF ++ j)) by (rewrite <- E0; exact (tail_after _ _ _ Hi Ha0)). pose proof (here_app M D HT L False HQ HN CRLF j Hj1) as A2.
      assert (Ei : here i = here ((x :: b) ++ CRLF ++ j)) by (rewrite Eb, E0; reflexivity).
      destruct (N.eqb_spec (here i + N.of_nat (S (length b))) (here j)) as [Q|Q]; [exfalso; rewrite Ei in Q; cbn [length CRLF] in A1, A2; lia|].
      destruct (contents m (Borrowed (here i) _)); try discriminate. cbn [bind] in Hs. destruct (contents m _); try discriminate. injection Hs as <-. eexists; reflexivity.
  - subst j. leaf. exact X.
Qed.
Lemma quoted_pair_exactly : does (z_quoted_pair M) quoted_pair (exactly true).
Proof.
  intros i Hi. unfold z_quoted_pair, quoted_pair. eapply bind_p; [apply TG|exact Hi|]. intros j [] [] Hj Ha Ei. cbn beta iota. destruct j as [|c j]; [reflexivity|]. destruct (is_vchar c || is_wsp c) eqn:V; [|reflexivity].
  unfold unchecked_from, unchecked_to. cbn [length]. change (S (length j) <? 1) with false. cbn [bind skipn firstn]. apply (vchar_small M D HT L False HQ HN) in V. destruct (one_byte M D HT HA L False HQ HN c j Hj (ascii_one M D HT L False HQ HN c V)) as [-> F]. unfold str_unchecked. rewrite (ascii_one M D HT L False HQ HN c V). cbn [bind rel].
  split; [reflexivity|]. split; [rewrite Ei; now exists [BACKSLASH; c]|]. cbn [fst snd]. split; [apply F|]. exists [BACKSLASH; c]. split; [exact Ei|]. right. split; [easy|]. split; [easy|]. exists [BACKSLASH]. split; [right; right; split; [reflexivity|]; split; [reflexivity|now exists [c]]|].
  left. now split.
Qed.
Lemma exactly_join : forall es i j l vs, chain D (exactly es) i j l vs -> forall i0 o v, tail i0 -> exactly es i0 i o v -> exists s, join m o l = Ok s /\ exactly es i0 j s (v ++ concat vs).
Proof.
  intros es i j l vs H. induction H as [i|i j k a b l l' Hi Ha HR H IH]; intros i0 o v H0 W; cbn [join concat]; [exists o; rewrite app_nil_r; now split|].
  destruct (add_exactly _ _ _ _ _ _ _ _ H0 W HR) as (s & -> & Hs). cbn [bind]. rewrite app_assoc. exact (IH i0 s _ H0 Hs).
Qed.
Lemma collect_exactly : forall es p q, does p q (exactly es) -> does (z_collect_many M p) (collect_many q) (exactly es).
Proof.
  intros es p q H i Hi. unfold z_collect_many, collect_many. eapply bind_p; [apply many_does, H|exact Hi|]. intros j l vs Hj Ha HC. cbn beta iota.
  destruct (exactly_join _ _ _ _ _ HC i (z_empty M) [] Hi (exactly_empty es i)) as (s & Hs & W). apply rel_then. exists s. split; [exact Hs|]. leaf. exact W.
Qed.
Lemma quoted_step_exactly : does (z_quoted_string_step M) quoted_string_step (exactly true).
Proof.
  intros i Hi. unfold z_quoted_string_step, quoted_string_step.
  assert (F : does (fun i => attempt (z_fws M i) (fun '(r, s) => let* o := add_string m (z_empty M) s in Ok (r, o)) (Ok (i, z_empty M))) (fun i => attempt (fws i) (fun '(r, s) => Ok (r, s)) (Ok (i, []))) (exactly true)).
  { intros k Hk. eapply attempt_p; [apply (fws_exactly true)|exact Hk| |].
    - intros j a b Hj Ha W. destruct (add_exactly true k k j (z_empty M) [] a b Hk (exactly_empty true k) W) as (s & Hs & Ws). apply rel_then. exists s. split; [exact Hs|]. leaf. exact Ws.
    - leaf. apply exactly_empty. }
  eapply (bind_p D _ _ _ _ _ _ _ _ i _ _ F Hi). intros j a b Hj Ha W. cbn beta iota. eapply attempt_p; [apply T1|exact Hj| |].
  - intros k [p n] v Hk Hjk HS. cbn beta iota. pose proof (exactly_taken true _ _ _ _ _ Hj (qtext_no true) HS) as X. apply rel_then. rewrite add_str_same. destruct (add_exactly _ _ _ _ _ _ _ _ Hi W X) as (s & Hs & Ws). exists s. split; [exact Hs|]. leaf. exact Ws.
  - eapply attempt_p; [apply quoted_pair_exactly|exact Hj| |reflexivity]. intros k c v Hk Hjk W'. cbn beta iota. apply rel_then. destruct (add_exactly _ _ _ _ _ _ _ _ Hi W W') as (s & Hs & Ws). exists s. split; [exact Hs|]. leaf. exact Ws.
Qed.
(* a text of an unstructured header: after the last visible character only blanks are dropped *)
Definition visible_end (i j : bytes) : Prop := exists u x, i = u ++ x :: j /\ is_vchar x = true.
Definition step_exactly (i j : bytes) (c : cow) (v : bytes) : Prop := exactly false i j c v /\ visible_end i j.
Lemma visible_after : forall i j k, after i j -> visible_end j k -> visible_end i k.
Proof. intros i j k [a ->] (u & x & -> & V). exists (a ++ u), x. split; [apply app_assoc|exact V]. Qed.
Lemma slice_visible : forall i j s v, slice1_of M D is_vchar i j s v -> visible_end i j.
Proof.
  intros i j s v [((_ & -> & _) & _ & F) NE]. destruct (exists_last NE) as (u & x & ->). exists u, x. split; [now rewrite <- app_assoc|]. apply Forall_app in F as [_ F]. now inversion F.
Qed.
Lemma unstructured_step_exactly : does (z_unstructured_step M) unstructured_step step_exactly.
Proof.
  intros i Hi. unfold z_unstructured_step, unstructured_step, z_collect_pair, collect_pair.
  assert (F : does (fun i => attempt (z_fws M i) (fun ra => Ok ra) (Ok (i, z_empty M))) (fun i => attempt (fws i) (fun ra => Ok ra) (Ok (i, []))) (exactly false)).
  { intros k Hk. eapply attempt_p; [apply (fws_exactly false)|exact Hk| |]; [|leaf; apply exactly_empty]. intros j a b Hj Ha W. leaf. exact W. }
  eapply (bind_p D _ _ _ _ _ _ _ _ i _ _ F Hi). intros j a b Hj Ha W. cbn beta iota.
  assert (G : does (borrowed_slice M (take_while1 is_vchar)) (take_while1 is_vchar) step_exactly).
  { intros k Hk. unfold borrowed_slice, pmap. pose proof (T1 is_vchar k Hk) as R. destruct (sliced M _ k) as [[j' s]|e|c], (take_while1 is_vchar k) as [[j'' v]|e'|c']; try contradiction; [|exact R..]. destruct R as (Eq & Hk' & R). cbn [fst snd] in *. subst j''. cbn. split; [reflexivity|]. split; [exact Hk'|]. split; [exact (exactly_taken false _ _ _ _ _ Hk vchar_no R)|exact (slice_visible _ _ _ _ R)]. }
  eapply bind_p; [exact G|exact Hj|]. intros k c v Hk Hjk [X V]. cbn beta iota. destruct (add_exactly _ _ _ _ _ _ _ _ Hi W X) as (s & Hs & Ws). apply rel_then. exists s. split; [exact Hs|]. leaf. split; [exact Ws|exact (visible_after _ _ _ Ha V)].
Qed.
Lemma chain_visible : forall i j l vs, chain D step_exactly i j l vs -> chain D (exactly false) i j l vs /\ (i = j \/ visible_end i j).
Proof.
  intros i j l vs H. induction H as [i|i j k a b l l' Hi Ha [HR V] H [IH1 IH2]]; [split; [constructor|now left]|]. split; [now constructor 2 with j|]. right. destruct IH2 as [->|IH2]; [exact V|exact (visible_after _ _ _ Ha IH2)].
Qed.
Lemma unstructured_exactly : forall i, tail i -> forall j c, z_unstructured M i = Ok (j, c) ->
  exists w b v, i = w ++ b ++ j /\ chars rfc_WSP b /\ ends_in rfc_VCHAR w /\ unstructured i = Ok (j, v) /\ StringSpec.is_text m c v /\ (is_borrowed c <-> kept_together false w v).
Proof.
  intros i Hi j c. unfold z_unstructured, unstructured, z_collect_many, collect_many. pose proof (many_does D _ _ _ _ _ unstructured_step_exactly i Hi) as HC.
  destruct (many (z_unstructured_step M) i) as [[k l]|e|x], (many unstructured_step i) as [[k' vs]|e'|x']; try contradiction; try discriminate. destruct HC as (E & Ha & HC). cbn [fst snd] in *. subst k'. cbn [bind].
  destruct (chain_visible _ _ _ _ HC) as [HC' V]. destruct (exactly_join _ _ _ _ _ HC' i (z_empty M) [] Hi (exactly_empty false i)) as (s & -> & W). cbn [bind app] in *.
  pose proof (sound_blanks (fun _ => True) k) as B. destruct (ignore_many _ k) as [[j' u]|e|x]; try discriminate. destruct B as (b & -> & B). cbn [bind]. intros [= <- <-].
  pose proof W as [[T _] _]. apply exactly_iff in W as (w & -> & W). exists w, b, (concat vs). split; [reflexivity|]. split; [exact B|]. split; [|split; [reflexivity|split; [exact T|exact W]]].
  destruct V as [V|(u' & x & V & Hx)]; [left; apply (f_equal (@length N)) in V; rewrite app_length in V; destruct w; [reflexivity|cbn in V; lia]|right].
  exists u', x. split; [|now apply vchar_spec]. apply (app_inv_tail (b ++ j')). rewrite V, <- app_assoc. reflexivity.
Qed.

(* a quoted string: what stands between the quotes *)
Lemma skip_gives : forall A B (Q : A -> B -> Prop) i k l, tail i -> (forall x j, i = x ++ j -> rfc_oCFWS x -> tail j -> rel Q (k j) (l j)) -> rel Q (bind (z_skip_cfws M i) k) (bind (skip_cfws i) l).
Proof.
  intros A B Q i k l Hi HK. pose proof (skip_does M D HT HA L False HQ HN _ _ eq i (fun j => Ok j) (fun j => Ok j) Hi (fun j _ _ => eq_refl)) as S. pose proof (sound_skip_cfws (fun _ => True) i) as P.
  destruct (z_skip_cfws M i) as [j|e|x], (skip_cfws i) as [j'|e'|x']; try contradiction; try exact S. cbn in S. subst j'. destruct P as (x & -> & P). cbn [bind]. apply (HK x j eq_refl P). apply (tail_after _ _ _ Hi). now exists x.
Qed.
Definition quoted_exactly (i j : bytes) (c : cow) (v : bytes) : Prop :=
  exists x w y, i = x ++ [DQUOTE] ++ w ++ [DQUOTE] ++ y ++ j /\ rfc_oCFWS x /\ rfc_oCFWS y /\ StringSpec.is_text m c v /\ (is_borrowed c <-> kept_together true w v).
Lemma quoted_string_exactly : does (z_quoted_string M) quoted_string quoted_exactly.
Proof.
  intros i Hi. unfold z_quoted_string, quoted_string. apply skip_gives; [exact Hi|]. intros x i1 E1 Hx H1. apply (mark_does D); [exact H1|]. intros i2 E2 H2 A2. eapply bind_p; [apply collect_exactly, quoted_step_exactly|exact H2|]. intros i3 o v H3 A3 W. cbn beta iota.
  assert (F : rel (out (fun _ j c v => exactly true i2 j c v) i3) (attempt (z_fws M i3) (fun '(r, s) => let* o := add_string m o s in Ok (r, o)) (Ok (i3, o))) (attempt (fws i3) (fun '(r, s) => Ok (r, v ++ s)) (Ok (i3, v)))).
  { eapply attempt_p; [apply (fws_exactly true)|exact H3| |].
    - intros j a b Hj Ha W'. cbn beta iota. destruct (add_exactly _ _ _ _ _ _ _ _ H2 W W') as (s & Hs & Ws). apply rel_then. exists s. split; [exact Hs|]. leaf. exact Ws.
    - leaf. exact W. }
  eapply rel_bind; [exact F|]. intros [i4 o4] [i4' v4] (E & A4 & W4). cbn [fst snd] in *. subst i4'. assert (H4 : tail i4) by exact (tail_after _ _ _ H3 A4).
  apply (mark_does D); [exact H4|]. intros i5 E5 H5 A5. apply skip_gives; [exact H5|]. intros y i6 E6 Hy H6. cbn [rel]. pose proof W4 as [[T _] _]. apply exactly_iff in W4 as (w & E4 & W4).
  assert (Eq : i = x ++ [DQUOTE] ++ w ++ [DQUOTE] ++ y ++ i6) by (subst; reflexivity). split; [reflexivity|]. cbn [fst snd]. split; [exists (x ++ [DQUOTE] ++ w ++ [DQUOTE] ++ y); rewrite Eq, <- !app_assoc; reflexivity|].
  exists x, w, y. split; [exact Eq|]. split; [exact Hx|]. split; [exact Hy|]. split; [exact T|exact W4].
Qed.
End Place.
Lemma unstructured_copied : forall M D a i j c, total M = length D -> at_address (memory M) (base M) D -> D = a ++ i -> z_unstructured M i = Ok (j, c) ->
  exists w b v, i = w ++ b ++ j /\ chars rfc_WSP b /\ ends_in rfc_VCHAR w /\ unstructured i = Ok (j, v) /\ StringSpec.is_text (memory M) c v /\ (is_borrowed c <-> kept_together false w v).
Proof. intros M D a i j c HT HA HD H. exact (unstructured_exactly M D HT HA i (ex_intro _ a HD) j c H). Qed.
Lemma quoted_string_copied : forall M D a i j c, total M = length D -> at_address (memory M) (base M) D -> D = a ++ i -> z_quoted_string M i = Ok (j, c) ->
  exists x w y v, i = x ++ [DQUOTE] ++ w ++ [DQUOTE] ++ y ++ j /\ rfc_oCFWS x /\ rfc_oCFWS y /\ quoted_string i = Ok (j, v) /\ StringSpec.is_text (memory M) c v /\ (is_borrowed c <-> kept_together true w v).
Proof.
  intros M D a i j c HT HA HD H. pose proof (quoted_string_exactly M D HT HA i (ex_intro _ a HD)) as R. rewrite H in R. destruct (quoted_string i) as [[j' v]|e|x]; try contradiction. destruct R as (E & _ & x & w & y & R). cbn [fst snd] in *. subst j'. exists x, w, y, v.
  destruct R as (R1 & R2 & R3 & R4). split; [exact R1|]. split; [exact R2|]. split; [exact R3|]. split; [reflexivity|exact R4].
Qed.
(* a token is copied exactly when it has a capital letter *)
Lemma upper_some : forall v, existsb is_upper v = true <-> exists x, In x v /\ (65 <= x <= 90)%N.
Proof.
  intros v. rewrite existsb_exists. unfold is_upper. split; intros (x & H & U); exists x; (split; [exact H|]); [apply andb_prop in U as [A B]; apply N.leb_le in A, B; lia|apply andb_true_intro; split; apply N.leb_le; lia].
Qed.
Lemma lowered_ascii : forall v, Post.ascii v -> Post.ascii (lowercase v).
Proof. intros v H. unfold lowercase, Post.ascii in *. induction H as [|x v Hx H IH]; [constructor|]. constructor; [|exact IH]. unfold to_lower, is_upper. destruct (_ && _) eqn:B; [|exact Hx]. apply andb_prop in B as [_ B]. apply N.leb_le in B. unfold Post.ascii_byte in *. lia. Qed.
Lemma lower_token_copied : forall M D a i j c, total M = length D -> at_address (memory M) (base M) D -> D = a ++ i -> z_lower_token M i = Ok (j, c) ->
  exists w, i = w ++ j /\ token i = Ok (j, w) /\ StringSpec.is_text (memory M) c (lowercase w) /\ (is_borrowed c <-> ~ exists x, In x w /\ (65 <= x <= 90)%N).
Proof.
  intros M D a i j c HT HA HD H. unfold z_lower_token, z_token, borrowed_slice, pmap in H.
  pose proof (slice1_does M D HT HA (S (length D)) False ltac:(intros b w k -> HL; rewrite !app_length in HL; lia) ltac:(easy) is_token_char i (ex_intro _ a HD)) as R. unfold token.
  destruct (sliced M _ i) as [[j1 s]|x|x]; try discriminate. destruct (take_while1 _ i) as [[j2 w]|x|x]; try contradiction. destruct R as (Ej & _ & [T [F S]] & _ & Fv). cbn [fst snd bind] in *. subst j2.
  unfold z_lowercase in H. rewrite (text_contents _ _ _ (proj1 T)) in H. cbn [bind] in H.
  exists w. destruct (existsb is_upper w) eqn:U; injection H as <- <-; (split; [exact F|]); (split; [reflexivity|]); (split; [|]).
  - cbn. split; [|reflexivity]. apply Post.ascii_utf8, lowered_ascii. unfold Post.ascii. eapply Forall_impl; [|exact Fv]. intros y. apply SoundFields.token_char_ascii.
  - apply upper_some in U. split; [intros []|intros X; contradiction].
  - rewrite (lower_same w U). apply T.
  - split; [|intros _; destruct S as (q & E & _); unfold borrow in *; destruct s; exact I]. intros _ X. apply upper_some in X. congruence.
Qed.

(* the value of an entity is copied exactly when it is decoded *)
Definition decoded (e : encoding_t) : Prop := e = Base64Enc \/ e = QuotedPrintableEnc.
Lemma cte_field : forall f a b, z_set_field a f = Ok b -> (exists e, f = ZContentTransferEncoding e /\ zv_cte a = None /\ zv_cte b = Some e) \/ (zv_cte b = zv_cte a /\ forall e, f <> ZContentTransferEncoding e).
Proof.
  intros f a b H. destruct f; cbn [z_set_field] in H.
  all: try (injection H as <-; right; split; [reflexivity|discriminate]).
  all: match type of H with bind (set_once ?o ?x _) _ = _ => destruct o as [y|] eqn:O; cbn [set_once bind] in H; [discriminate H|injection H as <-] end.
  all: try (right; split; [reflexivity|discriminate]).
  left. eexists. split; [reflexivity|]. split; reflexivity.
Qed.
Lemma cte_fields : forall fs a b, z_set_fields a fs = Ok b -> forall e, zv_cte b = Some e <-> zv_cte a = Some e \/ In (ZContentTransferEncoding e) fs.
Proof.
  induction fs as [|f fs IH]; intros a b H e; cbn [z_set_fields] in H; [injection H as <-; cbn; tauto|]. destruct (z_set_field a f) as [a1|x|x] eqn:F; try discriminate. cbn [bind] in H. rewrite (IH _ _ H e). cbn [In].
  destruct (cte_field _ _ _ F) as [(e' & -> & N & S)|[S N]]; rewrite S; [rewrite N|]; split.
  - intros [[= ->]|X]; auto.
  - intros [X|[[= ->]|X]]; [discriminate X|auto..].
  - intros [X|X]; auto.
  - intros [X|[X|X]]; [auto|exfalso; exact (N e X)|auto].
Qed.
Lemma value_copied : forall m p lit E D, env_ok E -> at_address m p D -> loaded m lit -> forall z r j fs, z_parse m p lit E D = Ok z -> ze_entity z = Some r -> fields E D = Ok (j, fs) ->
  (is_borrowed (zr_value r) <-> j = [] \/ ~ exists e, In (FContentTransferEncoding e) fs /\ decoded e).
Proof.
  intros m p lit E D HK HA HL z r j fs Z R F. unfold z_parse, z_parse_message in Z. set (M := {| memory := m; base := p; total := length D; literal := at_empty lit |}) in *.
  assert (T : tail D D) by apply after_refl.
  pose proof (fields_does M D eq_refl HA (S (length D)) False ltac:(intros a w k -> H; rewrite !app_length in H; lia) ltac:(easy) E HK ltac:(intros _ a w k -> H; rewrite !app_length in H; lia) D T) as G.
  destruct (z_fields M E D) as [[j' gs]|x|x]; try discriminate. rewrite F in G. destruct G as (Ej & _ & G & _). cbn [fst snd bind] in *. subst j'.
  assert (C : forall e, In (ZContentTransferEncoding e) gs <-> In (FContentTransferEncoding e) fs).
  { intros e. clear - G. induction G as [|a b gs fs X G IH]; [tauto|]. cbn [In]. rewrite IH. clear IH G. split; (intros [->|Y]; [left|now right]); cbn in X; [destruct b|destruct a]; cbn in X; try contradiction; now subst. }
  destruct (if f_mime E then z_mime_body M j else z_body M j) as [b|x|x] eqn:B; try discriminate. cbn [bind] in Z. destruct (z_set_fields z_acc0 gs) as [a|x|x] eqn:A; try discriminate. cbn [bind] in Z.
  pose proof (cte_fields _ _ _ A) as Q. unfold z_finish in Z.
  destruct (if f_from E then _ else _) as [y1|x|x]; try discriminate. cbn [bind] in Z. destruct (if f_date E then _ else _) as [y2|x|x]; try discriminate. cbn [bind] in Z. destruct (if f_sender E then _ else _) as [y3|x|x]; try discriminate. cbn [bind] in Z.
  destruct (f_mime E); [|injection Z as <-; discriminate R]. destruct (match zv_content_type a with Some x => x | None => z_default_content_type lit end) as [[t u] q].
  unfold z_mime_body in B. destruct j as [|c0 j0].
  - injection B as <-. cbn [bind] in Z. injection Z as <-. cbn in R. injection R as <-. cbn. split; [now left|exact (fun _ => I)].
  - assert (B' : exists q n, b = Some (Borrowed q n)). { destruct (tag _ _ _) as [[j1 u1]|x|x]; try discriminate. cbn [bind] in B. injection B as <-. eauto. }
    destruct B' as (q0 & n0 & ->). destruct (z_decode_value M E (Borrowed q0 n0) (match zv_cte a with Some e => e | None => SevenBit end)) as [d|x|x] eqn:V; try discriminate. cbn [bind] in Z. injection Z as <-. cbn in R. injection R as <-. cbn [zr_value].
    destruct (zv_cte a) as [e|] eqn:CT.
    + assert (I1 : In (FContentTransferEncoding e) fs) by (apply C; destruct (proj1 (Q e) eq_refl) as [X|X]; [discriminate X|exact X]).
      assert (I2 : forall e', In (FContentTransferEncoding e') fs -> e' = e) by (intros e' X; apply C in X; assert (Y : Some e = Some e') by (apply Q; now right); now injection Y).
      unfold z_decode_value in V. destruct e; try (injection V as <-; split; [intros _; right; intros (e' & X & [->| ->]); apply I2 in X; discriminate X|exact (fun _ => I)]); try discriminate V.
      all: destruct (contents _ _) as [x|x|x]; try discriminate V; cbn [bind] in V; match type of V with bind ?q _ = _ => destruct q as [y|y|y]; try discriminate V end; cbn [bind] in V; injection V as <-.
      all: split; [intros []|intros [X|X]; [discriminate X|apply X; eexists; split; [exact I1|unfold decoded; tauto]]].
    + injection V as <-. split; [|exact (fun _ => I)]. intros _. right. intros (e & X & _). apply C in X. assert (Y : None = Some e) by (apply Q; now right). discriminate Y.
Qed.

(* the literals "plain", "charset" and "us-ascii" at address 10, the mail at address 1000 and nothing else *)
Definition rodata : bytes := bs "plaincharsetus-ascii".
Definition memory_of (D : bytes) : mem := fun a => if (a <? 10)%N then None else if (a <? 1000)%N then nth_error rodata (N.to_nat (a - 10)) else nth_error D (N.to_nat (a - 1000)).
Definition our_literals : literals := {| at_empty := 7; at_plain := 10; at_charset := 15; at_ascii := 22 |}.
Lemma memory_of_at : forall D, at_address (memory_of D) 1000 D.
Proof. intros D k b H. unfold memory_of. destruct (N.ltb_spec (1000 + N.of_nat k) 10) as [L|L]; [lia|]. destruct (N.ltb_spec (1000 + N.of_nat k) 1000) as [L1|L1]; [lia|]. replace (N.to_nat (1000 + N.of_nat k - 1000)) with k by lia. exact H. Qed.
Lemma memory_of_loaded : forall D, loaded (memory_of D) our_literals.
Proof.
  intros D. split; [|split]; intros k b H; do 9 (destruct k as [|k]; [cbn in H; first [discriminate H|injection H as <-; reflexivity]|]); destruct k; discriminate H.
Qed.
(* deciding whether a text occurs in another *)
Fixpoint starts (x s : bytes) : bool := match x, s with [], _ => true | a :: x, b :: s => N.eqb a b && starts x s | _ :: _, [] => false end.
Fixpoint occurs (x s : bytes) : bool := starts x s || match s with [] => false | _ :: s => occurs x s end.
Lemma starts_app : forall x s, starts x (x ++ s) = true.
Proof. induction x as [|a x IH]; intros s; [reflexivity|]. cbn. rewrite N.eqb_refl. apply IH. Qed.
Lemma occurs_app : forall a x b, occurs x (a ++ x ++ b) = true.
Proof.
  induction a as [|c a IH]; intros x b; cbn [app].
  - destruct (x ++ b) eqn:E; cbn [occurs]; rewrite <- E, starts_app; reflexivity.
  - cbn [occurs]. rewrite IH. apply orb_true_r.
Qed.
Lemma not_in : forall x s, occurs x s = false -> forall a b, s <> a ++ x ++ b.
Proof. intros x s H a b ->. rewrite occurs_app in H. discriminate H. Qed.
Lemma quiet_dec : forall h, occurs [BACKSLASH] h = false -> occurs (CRLF ++ [32%N]) h = false -> occurs (CRLF ++ [9%N]) h = false -> quiet h.
Proof.
  intros h H1 H2 H3. split; [intros X; apply in_split in X as (a & b & X); exact (not_in _ _ H1 a b X)|]. intros (a & x & b & E & V).
  assert (x = 32 \/ x = 9)%N as [-> | ->] by (unfold is_wsp in V; apply orb_prop in V as [V|V]; apply N.eqb_eq in V; auto); [exact (not_in _ _ H2 a b E)|exact (not_in _ _ H3 a b E)].
Qed.
Lemma quiet_for_dec : forall E h, occurs [BACKSLASH] h = false -> occurs (CRLF ++ [32%N]) h = false -> occurs (CRLF ++ [9%N]) h = false -> occurs (bs "=?") h = false -> quiet_for E h.
Proof. intros E h H1 H2 H3 H4. split; [exact (quiet_dec h H1 H2 H3)|]. intros _ (a & b & X). exact (not_in _ _ H4 a b X). Qed.
(* a domain in brackets with a blank inside is copied *)
Definition bracket_headers : bytes := bs "Date: 5 May 2003 18:58:34 +0000" ++ CRLF ++ bs "From: a@[x y]" ++ CRLF.
Definition bracket_mail : bytes := bracket_headers ++ CRLF ++ bs "body".
Lemma bracket_copied : exists m p lit E D z h c, env_ok E /\ at_address m p D /\ loaded m lit /\ z_parse m p lit E D = Ok z /\ headers_of D h /\ quiet_for E h /\ In (Domain, c) (strings_of z) /\ ~ is_borrowed c.
Proof.
  destruct (z_parse (memory_of bracket_mail) 1000 our_literals env_default bracket_mail) as [z|x|x] eqn:Z; [|exfalso; revert Z; vm_compute; discriminate..].
  exists (memory_of bracket_mail), 1000%N, our_literals, env_default, bracket_mail, z, bracket_headers, (Owned (bs "xy")). split; [exact env_default_ok|]. split; [apply memory_of_at|]. split; [apply memory_of_loaded|]. split; [exact Z|].
  split; [constructor; [right; exists (bs "Date: 5 May 2003 18:58:34 +0000" ++ CRLF ++ bs "From: a@[x y]"); reflexivity| |right; exists (bs "body"); reflexivity]; intros a b; apply (not_in (CRLF ++ CRLF)); vm_compute; reflexivity|].
  split; [apply quiet_for_dec; vm_compute; reflexivity|]. split; [revert Z; vm_compute; intros [= <-]; cbn; right; right; left; reflexivity|intros []].
Qed.

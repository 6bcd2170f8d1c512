(* What locality of the header parsers gives for whole messages: the body has no influence on
   the fields (C40), and neither has the capitalisation of a header name (C21). *)
From Coq Require Import Lia ZifyBool ZifyNat ZifyN Permutation.
From Verif Require Import Base Utf8 CharSets Combinators Whitespace QuotedString Common Time Address Percent MimeFields Fields Message Entity Email Envs
  Rfc5322 Rfc2047 Post CodecSpec RfcFields SoundBase SoundTime SoundAddr TagNoCase ParamProofs SoundFields EmailSpec SoundMessage EmailProofs MessageFacts Steps Complete CompleteFields Forward ForwardText
  ForwardFields ForwardMessage HeaderFacts LocalSpec Local.
Local Open Scope N_scope.

(* ---- sequences of headers, for any relation the header parsers respect ---- *)
Definition rlocal {A} (R : bytes -> bytes -> Prop) (p : parser A) : Prop := forall i i', R i i' -> lrel R (p i) (p i').
Lemma rlocal_many_fuel : forall A R (p : parser A), rlocal R p -> progress p -> forall n n' i i', R i i' -> (length i < n)%nat -> (length i' < n')%nat ->
  lrel R (many_fuel n p i) (many_fuel n' p i').
Proof.
  intros A R p H HP. induction n as [|n IH]; intros [|n'] i i' N L L'; try lia. cbn [many_fuel]. specialize (H i i' N). pose proof (HP i) as P. pose proof (HP i') as P'.
  destruct (p i) as [[r a]|e|c], (p i') as [[r' a']|e'|c']; cbn in H; try contradiction; cbn [attempt]; [|now apply lrel_ok|exact H].
  destruct H as [-> N']. specialize (P r a' eq_refl). specialize (P' r' a' eq_refl). eapply lrel_bind; [apply IH; [exact N'|lia|lia]|]. intros. now apply lrel_ok.
Qed.
Lemma rlocal_many : forall A R (p : parser A), rlocal R p -> progress p -> rlocal R (many p).
Proof. intros A R p H HP i i' N. unfold many. apply rlocal_many_fuel; auto. Qed.
Lemma rlocal_block : forall E R, rlocal R (return_path E) -> rlocal R (received E) -> rlocal R (resent_field E) -> rlocal R (trace_block E).
Proof.
  intros E R H1 H2 H3 i i' N. assert (P2 : progress (received E)).
  { intros j. eapply post_shorter; [apply (sound_header _ E never _ _ "Received"); [reflexivity|reflexivity|]; intros; apply sound_received_value|]. intros c a. apply header_nonempty. }
  assert (P3 : progress (resent_field E)). { intros j. eapply post_shorter; [apply sound_resent_field with (K := never)|]. apply resent_nonempty. }
  unfold trace_block, trace. apply lrel_bind with (Q := R).
  - apply lrel_bind with (Q := R).
    + unfold optional. apply lrel_attempt with (Q := R); [now apply H1| |]; intros; now apply lrel_ok.
    + intros r r' a N1. cbv beta iota. unfold many1. apply lrel_bind with (Q := R); [|intros; now apply lrel_ok].
      apply lrel_bind with (Q := R); [now apply H2|]. intros r2 r2' b N2. cbv beta iota. apply lrel_bind with (Q := R); [now apply rlocal_many|]. intros. now apply lrel_ok.
  - intros r r' [rp rc] N1. cbv beta iota. apply lrel_bind with (Q := R); [now apply rlocal_many|]. intros. now apply lrel_ok.
Qed.
Lemma progress_any_field : forall E, env_ok E -> progress (any_field E).
Proof. intros E HE i. eapply post_shorter; [apply (sound_any_field E i (ok_hash E HE))|]. apply field_text_nonempty. Qed.
Lemma progress_block : forall E, f_trace E = true -> progress (trace_block E).
Proof. intros E HT i. eapply post_shorter; [apply (sound_trace_block E never i HT)|]. apply field_text_nonempty. Qed.
Lemma progress_pmap : forall A B (f : A -> B) (p : parser A), progress p -> progress (pmap f p).
Proof. intros A B f p H i r a. unfold pmap. destruct (p i) as [[r' a']|e|k] eqn:X; cbn; try discriminate. intros Y. inversion Y; subst. eapply H; eauto. Qed.
Lemma many_fuel_pmap : forall A B (f : A -> B) (p : parser A) n i, many_fuel n (pmap f p) i = let* (r, l) := many_fuel n p i in Ok (r, map f l).
Proof.
  intros A B f p. induction n as [|n IH]; intros i; [reflexivity|]. cbn [many_fuel]. unfold pmap at 1. destruct (p i) as [[r a]|e|k]; cbn [bind attempt]; [|reflexivity|reflexivity].
  rewrite IH. now destruct (many_fuel n p r) as [[r' l]|e|k].
Qed.
Lemma many_pmap : forall A B (f : A -> B) (p : parser A) i, many (pmap f p) i = let* (r, l) := many p i in Ok (r, map f l).
Proof. intros. apply many_fuel_pmap. Qed.
(* the fields, up to a change [g] of each that does not touch trace fields *)
Lemma rlocal_fields : forall E R (g : field -> field), env_ok E -> (forall a b c, g (FTrace a b c) = FTrace a b c) ->
  rlocal R (return_path E) -> rlocal R (received E) -> rlocal R (resent_field E) -> rlocal R (pmap g (any_field E)) -> rlocal R (pmap (map g) (fields E)).
Proof.
  intros E R g HE Hg H1 H2 H3 H4 i i' N. unfold pmap, fields.
  assert (T : lrel R (if f_trace E then many (trace_block E) i else Ok (i, [])) (if f_trace E then many (trace_block E) i' else Ok (i', []))).
  { destruct (f_trace E) eqn:HT; [|now apply lrel_ok]. apply rlocal_many; auto using progress_block, rlocal_block. }
  set (x := if f_trace E then many (trace_block E) i else Ok (i, [])) in *. set (y := if f_trace E then many (trace_block E) i' else Ok (i', [])) in *.
  destruct x as [[r a]|e|k], y as [[r' a']|e'|k']; cbn in T; try contradiction; cbn [bind]; auto. destruct T as [-> N1].
  pose proof (rlocal_many _ R (pmap g (any_field E)) H4 (progress_pmap _ _ g _ (progress_any_field E HE)) r r' N1) as M. rewrite !many_pmap in M.
  destruct (many (any_field E) r) as [[r2 l]|e|k], (many (any_field E) r') as [[r2' l']|e'|k']; cbn in M; try contradiction; cbn [bind lrel]; auto.
  destruct M as [M N2]. split; [|exact N2]. rewrite !map_app. now f_equal.
Qed.
Lemma rlocal_id : forall A R (p : parser A), rlocal R (pmap (fun x => x) p) <-> rlocal R p.
Proof.
  intros A R p. split; intros H i i' N; specialize (H i i' N); unfold pmap in *; destruct (p i) as [[r a]|e|k], (p i') as [[r' a']|e'|k']; exact H.
Qed.

(* ---- where the fields stop ---- *)
Lemma fields_stop : forall E i r fs, env_ok E -> fields E i = Ok (r, fs) -> exists c, i = c ++ r /\ (c = [] \/ ends_crlf c).
Proof.
  intros E i r fs HE H. pose proof (sound_fields_env E i HE) as S. rewrite H in S. destruct S as (c & -> & S). exists c. split; [reflexivity|].
  apply many_ends in S as [[-> _]|S]; auto. apply field_ends.
Qed.
Lemma header_block_stop : forall h c z x y, header_block h -> h ++ CRLF ++ x = c ++ z ++ CRLF ++ x -> (c = [] \/ ends_crlf c) -> starts_with (z ++ CRLF ++ y) CRLF = false.
Proof.
  intros h c z x y (H0 & H1 & H2) Hc Ec. rewrite !app_assoc in Hc. apply app_inv_tail in Hc. apply app_inv_tail in Hc. subst h.
  destruct (starts_with (z ++ CRLF ++ y) CRLF) eqn:S; [|reflexivity]. exfalso. destruct z as [|a [|b z]].
  - rewrite app_nil_r in *. destruct Ec as [->|[d ->]]; [easy|]. apply (H2 d []). now rewrite <- app_assoc.
  - cbn [app CRLF starts_with] in S. destruct (13 =? a); discriminate.
  - cbn [app CRLF starts_with] in S. apply andb_true_iff in S as [S1 S]. apply andb_true_iff in S as [S2 _]. apply N.eqb_eq in S1, S2. subst a b.
    destruct Ec as [->|[d ->]]; [apply (H1 z); reflexivity|]. apply (H2 d (z ++ CRLF)). rewrite <- !app_assoc. reflexivity.
Qed.
Lemma tag_stop : forall m i, starts_with i CRLF = false -> tag CRLF m i = Err (Explicit m).
Proof. intros m i H. unfold tag. now rewrite H. Qed.
(* the body of a message whose fields stop at [r] *)
Definition stop_error : error := Explicit "TAG ERROR: Headers must be followed by a CRLF sequence.".
Lemma body_stop : forall (m : bool) i, i <> [] -> starts_with i CRLF = false -> (if m then mime_body i else body i) = Err stop_error.
Proof. intros m [|a i] H S; [easy|]. unfold mime_body, body. rewrite !tag_stop by exact S. now destruct m. Qed.
Lemma body_crlf : forall (m : bool) b, (if m then mime_body (CRLF ++ b) else body (CRLF ++ b)) = Ok (Some b) \/ (m = false /\ ~ body_text b /\ exists e, body (CRLF ++ b) = Err e).
Proof.
  intros [] b; [left|].
  - change (mime_body (CRLF ++ b)) with (let* (r, _) := tag CRLF "TAG ERROR: Headers must be followed by a CRLF sequence." (CRLF ++ b) in Ok (Some r)). now rewrite tag_app.
  - destruct (body_spec b) as [[_ H]|[H1 H2]]; [now left|right]. eauto.
Qed.

(* ---- C40 ---- *)
Ltac rew_bind Y := lazymatch type of Y with _ = ?v => lazymatch goal with |- context [@bind (option bytes) _ ?x _] => let Z := fresh in assert (Z : x = v) by exact Y; rewrite Z; clear Z end end.
Lemma later_bare : forall A (p : parser A) b b', hlocal (CRLF ++ b) (CRLF ++ b') p -> (forall i, bare i -> exists e, p i = Err e) -> rlocal (later (CRLF ++ b) (CRLF ++ b')) p.
Proof.
  intros A p b b' H1 H2 i i' [N|[-> ->]]; [now apply H1|]. destruct (H2 (CRLF ++ b)) as [e ->]; [right; eauto|]. destruct (H2 (CRLF ++ b')) as [e' ->]; [right; eauto|]. exact I.
Qed.
Lemma fields_body : forall E h b b', env_ok E -> lrel (later (CRLF ++ b) (CRLF ++ b')) (fields E (h ++ CRLF ++ CRLF ++ b)) (fields E (h ++ CRLF ++ CRLF ++ b')).
Proof.
  intros E h b b' HE. assert (W : forall x, ends is_wsp (CRLF ++ x)) by reflexivity.
  assert (G : rlocal (later (CRLF ++ b) (CRLF ++ b')) (pmap (map (fun x => x)) (fields E))).
  { apply rlocal_fields; auto.
    - apply later_bare; [now apply hlocal_return_path|]. intros i Hi. apply return_path_none. apply bare_without; [exact Hi|discriminate].
    - apply later_bare; [now apply hlocal_received|]. intros i Hi. apply received_none. apply bare_without; [exact Hi|discriminate].
    - apply later_bare; [now apply hlocal_resent_field|]. intros i Hi. apply resent_none. intros name Hn. apply (bare_no_trace i Hi). unfold trace_names. apply in_or_app. now right.
    - apply rlocal_id. apply later_bare; [now apply hlocal_any_field|]. intros i Hi. now apply any_field_bare. }
  specialize (G (h ++ CRLF ++ CRLF ++ b) (h ++ CRLF ++ CRLF ++ b')). unfold pmap in G.
  assert (N : later (CRLF ++ b) (CRLF ++ b') (h ++ CRLF ++ CRLF ++ b) (h ++ CRLF ++ CRLF ++ b')) by (left; now exists h). specialize (G N).
  destruct (fields E (h ++ CRLF ++ CRLF ++ b)) as [[r l]|e|k], (fields E (h ++ CRLF ++ CRLF ++ b')) as [[r' l']|e'|k']; cbn in G; rewrite ?map_id in G; exact G.
Qed.
(* the fields never depend on what follows the first empty line *)
Lemma body_no_influence : forall E h b b' fs x, env_ok E -> header_block h -> parse_message E (h ++ CRLF ++ CRLF ++ b) = Ok (fs, x) ->
  x = Some b /\ ((f_mime E = false -> body_text b') -> parse_message E (h ++ CRLF ++ CRLF ++ b') = Ok (fs, Some b')) /\
  (f_mime E = false -> ~ body_text b' -> exists e, parse_message E (h ++ CRLF ++ CRLF ++ b') = Err e).
Proof.
  intros E h b b' fs x HE Hh H. pose proof (fields_body E h b b' HE) as F. unfold parse_message in *.
  destruct (fields E (h ++ CRLF ++ CRLF ++ b)) as [[r l]|e|k] eqn:X, (fields E (h ++ CRLF ++ CRLF ++ b')) as [[r' l']|e'|k']; cbn in F; try contradiction; try discriminate.
  destruct F as [-> [(z & -> & ->)|[-> ->]]]; cbn [bind] in *.
  - exfalso. apply fields_stop in X as (c & X & Hc); auto. pose proof (header_block_stop h c z (CRLF ++ b) (CRLF ++ b) Hh X Hc) as S.
    rewrite body_stop in H; [discriminate|destruct z; discriminate|exact S].
  - destruct (body_crlf (f_mime E) b) as [Y|(M & _ & e & Y)]; [|exfalso; revert H; rewrite M; rew_bind Y; discriminate]. revert H. rew_bind Y. intros H. inversion H; subst. split; [reflexivity|]. split.
    + intros Hb. destruct (body_crlf (f_mime E) b') as [Y'|(M & N & _)]; [now rew_bind Y'|]. exfalso. auto.
    + intros M N. rewrite M. destruct (body_spec b') as [[N' _]|[_ Y']]; [contradiction|]. rew_bind Y'. cbn [bind]. eauto.
Qed.
Lemma body_no_influence_email : forall E h b b' e, env_ok E -> header_block h -> parse E (h ++ CRLF ++ CRLF ++ b) = Ok e ->
  match parse E (h ++ CRLF ++ CRLF ++ b') with
  | Ok e' => same_headers e e'
  | Err _ => f_mime E = false /\ ~ body_text b' \/ f_mime E = true /\ exists c v, transfer_decoded c b v /\ forall v', ~ transfer_decoded c b' v'
  | Crash _ => False
  end.
Proof.
  intros E h b b' e HE Hh H. destruct (parse_ok_message _ _ _ H) as (fs & x & M). destruct (body_no_influence E h b b' fs x HE Hh M) as (-> & M' & M2).
  apply (parse_iff_email E _ fs (Some b) e HE M) in H.
  assert (C : f_mime E = false -> body_text b' \/ ~ body_text b'). { intros _. destruct (body_spec b') as [[]|[]]; auto. }
  assert (D : (f_mime E = false -> body_text b') \/ (f_mime E = false /\ ~ body_text b')). { destruct (f_mime E); [now left; discriminate|]. destruct (C eq_refl); auto. }
  destruct D as [D|[D1 D2]].
  - specialize (M' D). pose proof (parse_assemble _ _ _ _ M') as P. pose proof (assemble_spec E fs (Some b')) as A.
    destruct (parse E (h ++ CRLF ++ CRLF ++ b')) as [e'|err|k]; lazymatch type of A with match ?y with _ => _ end => lazymatch type of P with ?z = _ => assert (P' : y = z) by (symmetry; exact P); rewrite P' in A; clear P P' end end; [| |contradiction].
    + destruct H, A. assert (FR : from e = from e'). { destruct (f_from E); congruence. }
      constructor; try congruence.
      * rewrite FR in *. destruct (f_sender E); [destruct of_sender as [-> _], of_sender0 as [-> _]; reflexivity|congruence].
      * destruct (f_date E); [destruct of_date as [<- _], of_date0 as [<- _]; reflexivity|congruence].
      * destruct (f_mime E); [|rewrite of_mime, of_mime0; constructor]. destruct of_mime as (v & _ & ->), of_mime0 as (v' & _ & ->). constructor; reflexivity.
    + right. destruct H. destruct A as [n R|_ F N|_ F N _|_ F N O _ _|t w _ F Hb N _ _ _].
      * now apply first_repeat_dup in R.
      * exfalso. rewrite F in of_from. unfold only in of_from. rewrite N in of_from. discriminate.
      * exfalso. rewrite F in of_date. destruct of_date as [X Y]. unfold only in X. rewrite N in X. cbn in X. congruence.
      * exfalso. rewrite F in of_sender. destruct of_sender as [X Y]. unfold only in X at 1. rewrite N in X. cbn in X. pose proof (ok_sender E HE F) as Ff. rewrite Ff in *.
        unfold authors in O. rewrite of_from in O. destruct (from e) as [|m [|]]; cbn in X; [congruence|now apply (O m)|congruence].
      * split; auto. inversion Hb; subst. rewrite F in of_mime. destruct of_mime as (v & Hv & _). eauto.
  - destruct (M2 D1 D2) as [x M3]. unfold parse. rewrite M3. cbn [bind]. left. auto.
Qed.

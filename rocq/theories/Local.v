(* Header parsers only look at their own header: on two inputs that agree up to a line
   end whose continuation does not start with a blank, they do the same. *)
From Coq Require Import Lia ZifyBool ZifyNat ZifyN.
From Verif Require Import Base Utf8 CharSets Combinators Whitespace QuotedString EncodedWord Common Time Address Percent MimeFields Fields
  Rfc5322 Rfc2047 RfcFields Post SoundBase SoundTime SoundAddr TagNoCase ParamProofs SoundFields Forward.
Local Open Scope N_scope.

(* ---- generic ---- *)
(* two runs: same value, related rests; both fail; or the same crash *)
Definition lrel {A} (R : bytes -> bytes -> Prop) (x y : res (bytes * A)) : Prop :=
  match x, y with
  | Ok (r, a), Ok (r', a') => a = a' /\ R r r'
  | Err _, Err _ => True
  | Crash k, Crash k' => k = k'
  | _, _ => False
  end.
Definition rrel (R : bytes -> bytes -> Prop) (x y : res bytes) : Prop :=
  match x, y with
  | Ok r, Ok r' => R r r'
  | Err _, Err _ => True
  | Crash k, Crash k' => k = k'
  | _, _ => False
  end.
Lemma lrel_bind : forall A B (Q R : bytes -> bytes -> Prop) (x y : res (bytes * A)) (k k' : bytes * A -> res (bytes * B)),
  lrel Q x y -> (forall r r' a, Q r r' -> lrel R (k (r, a)) (k' (r', a))) -> lrel R (bind x k) (bind y k').
Proof. intros A B Q R [[r a]|e|c] [[r' a']|e'|c'] k k' H K; cbn in *; auto; try contradiction. destruct H as [-> H]. now apply K. Qed.
Lemma lrel_bind_r : forall B (Q R : bytes -> bytes -> Prop) (x y : res bytes) (k k' : bytes -> res (bytes * B)),
  rrel Q x y -> (forall r r', Q r r' -> lrel R (k r) (k' r')) -> lrel R (bind x k) (bind y k').
Proof. intros B Q R [r|e|c] [r'|e'|c'] k k' H K; cbn in *; auto; contradiction. Qed.
Lemma lrel_bind_p : forall A B (R : bytes -> bytes -> Prop) (x : res A) (k k' : A -> res (bytes * B)),
  (forall a, lrel R (k a) (k' a)) -> lrel R (bind x k) (bind x k').
Proof. intros A B R [a|e|c] k k' K; cbn; auto. Qed.
Lemma lrel_attempt : forall A B (Q R : bytes -> bytes -> Prop) (x y : res (bytes * A)) (k k' : bytes * A -> res (bytes * B)) f f',
  lrel Q x y -> (forall r r' a, Q r r' -> lrel R (k (r, a)) (k' (r', a))) -> lrel R f f' -> lrel R (attempt x k f) (attempt y k' f').
Proof. intros A B Q R [[r a]|e|c] [[r' a']|e'|c'] k k' f f' H K F; cbn in *; auto; try contradiction. destruct H as [-> H]. now apply K. Qed.
Lemma rrel_attempt : forall A (Q R : bytes -> bytes -> Prop) (x y : res (bytes * A)) (k k' : bytes * A -> res bytes) f f',
  lrel Q x y -> (forall r r' a, Q r r' -> rrel R (k (r, a)) (k' (r', a))) -> rrel R f f' -> rrel R (attempt x k f) (attempt y k' f').
Proof. intros A Q R [[r a]|e|c] [[r' a']|e'|c'] k k' f f' H K F; cbn in *; auto; try contradiction. destruct H as [-> H]. now apply K. Qed.
Lemma lrel_map_err : forall A (R : bytes -> bytes -> Prop) (x y : res (bytes * A)) e e', lrel R x y -> lrel R (map_err x e) (map_err y e').
Proof. intros A R [[r a]|e|c] [[r' a']|e'|c'] f f' H; cbn in *; auto. Qed.
Lemma lrel_weaken : forall A (Q R : bytes -> bytes -> Prop) (x y : res (bytes * A)), (forall r r', Q r r' -> R r r') -> lrel Q x y -> lrel R x y.
Proof. intros A Q R [[r a]|e|c] [[r' a']|e'|c'] H; cbn; auto. intros [-> X]. auto. Qed.
Lemma lrel_ok : forall A (R : bytes -> bytes -> Prop) r r' (a : A), R r r' -> lrel R (Ok (r, a)) (Ok (r', a)).
Proof. intros. split; auto. Qed.
Lemma lrel_err : forall A (R : bytes -> bytes -> Prop) e e', @lrel A R (Err e) (Err e').
Proof. intros. exact I. Qed.
Lemma lrel_match : forall A (R : bytes -> bytes -> Prop) (ps : list (parser A)) i i', Forall (fun p => lrel R (p i) (p i')) ps ->
  lrel R (match_parsers ps i) (match_parsers ps i').
Proof. intros A R ps i i' H. induction H; cbn [match_parsers]; [exact I|]. eapply lrel_attempt; [exact H| |exact IHForall]. intros. now apply lrel_ok. Qed.

Section Tails.
Variables t t' : bytes.
Hypothesis t_ends : ends is_wsp t.
Hypothesis t_ends' : ends is_wsp t'.

(* inside the header *)
Definition near (i i' : bytes) : Prop := exists z, i = z ++ CRLF ++ t /\ i' = z ++ CRLF ++ t'.
(* inside it or just after it *)
Definition later (i i' : bytes) : Prop := near i i' \/ (i = t /\ i' = t').
Definition local {A} (p : parser A) : Prop := forall i i', near i i' -> lrel near (p i) (p i').

Lemma local_optional : forall A (p : parser A), local p -> local (optional p).
Proof. intros A p H i i' N. unfold optional. eapply lrel_attempt; [now apply H| |]; intros; now apply lrel_ok. Qed.
Lemma local_match : forall A (ps : list (parser A)), Forall local ps -> local (match_parsers ps).
Proof. intros A ps H i i' N. apply lrel_match. eapply Forall_impl; [|exact H]. intros p Hp. now apply Hp. Qed.
Lemma local_pmap : forall A B (f : A -> B) (p : parser A), local p -> local (pmap f p).
Proof. intros A B f p H i i' N. unfold pmap. eapply lrel_bind; [now apply H|]. intros. now apply lrel_ok. Qed.
Lemma local_pair : forall A B (p : parser A) (q : parser B), local p -> local q -> local (pair_p p q).
Proof. intros A B p q Hp Hq i i' N. unfold pair_p. eapply lrel_bind; [now apply Hp|]. intros. eapply lrel_bind; [now apply Hq|]. intros. now apply lrel_ok. Qed.
Lemma local_triplet : forall A B C (p : parser A) (q : parser B) (s : parser C), local p -> local q -> local s -> local (triplet p q s).
Proof. intros A B C p q s Hp Hq Hs i i' N. unfold triplet. eapply lrel_bind; [now apply Hp|]. intros. eapply lrel_bind; [now apply Hq|]. intros. eapply lrel_bind; [now apply Hs|]. intros. now apply lrel_ok. Qed.
Lemma local_collect_pair : forall (p q : parser bytes), local p -> local q -> local (collect_pair p q).
Proof. intros p q Hp Hq i i' N. unfold collect_pair. eapply lrel_bind; [now apply Hp|]. intros. eapply lrel_bind; [now apply Hq|]. intros. now apply lrel_ok. Qed.

(* ---- loops ---- *)
Definition shorter {A} (x : res (bytes * A)) (i : bytes) : Prop := forall r a, x = Ok (r, a) -> (length r < length i)%nat.
Definition progress {A} (p : parser A) : Prop := forall i, shorter (p i) i.
Lemma post_shorter : forall A K (x : res (bytes * A)) i P, post K x i P -> (forall c a, P c a -> c <> []) -> shorter x i.
Proof. intros A K x i P H HP r a ->. destruct H as (c & -> & H). apply HP in H. rewrite app_length. destruct c; [easy|cbn; lia]. Qed.
Lemma many_fuel_local : forall A (P : bytes -> bytes -> Prop) (p p' : parser A),
  (forall i i' r r', P i i' -> (length r < length i)%nat -> (length r' < length i')%nat -> P r r') ->
  (forall i i', near i i' -> P i i' -> lrel near (p i) (p' i') /\ shorter (p i) i /\ shorter (p' i') i') ->
  forall n n' i i', near i i' -> P i i' -> (length i < n)%nat -> (length i' < n')%nat -> lrel near (many_fuel n p i) (many_fuel n' p' i').
Proof.
  intros A P p p' Pdown H. induction n as [|n IH]; intros [|n'] i i' N HP L L'; try lia. cbn [many_fuel]. destruct (H i i' N HP) as (H1 & H2 & H3).
  destruct (p i) as [[r a]|e|c], (p' i') as [[r' a']|e'|c']; cbn in H1; try contradiction; cbn [attempt]; [|now apply lrel_ok|exact H1].
  destruct H1 as [-> N']. specialize (H2 r a' eq_refl). specialize (H3 r' a' eq_refl). eapply lrel_bind; [apply IH; auto; [eapply Pdown; eauto|lia|lia]|]. intros. now apply lrel_ok.
Qed.
Lemma local_many : forall A (p : parser A), local p -> progress p -> local (many p).
Proof. intros A p H HP i i' N. unfold many. apply many_fuel_local with (P := fun _ _ => True); auto. Qed.
Lemma local_ignore_many : forall A (p : parser A), local p -> progress p -> local (ignore_many p).
Proof. intros A p H HP i i' N. unfold ignore_many. eapply lrel_bind; [apply local_many; eauto|]. intros. now apply lrel_ok. Qed.
Lemma local_many1 : forall A (p : parser A), local p -> progress p -> local (many1 p).
Proof. intros A p H HP i i' N. unfold many1. eapply lrel_bind; [now apply H|]. intros. eapply lrel_bind; [apply local_many; eauto|]. intros. now apply lrel_ok. Qed.
Lemma local_collect_many : forall (p : parser bytes), local p -> progress p -> local (collect_many p).
Proof. intros p H HP i i' N. unfold collect_many. eapply lrel_bind; [apply local_many; eauto|]. intros. now apply lrel_ok. Qed.

(* ---- primitives ---- *)
Definition no_cr (e : bytes) : Prop := ~ In 13 e.
Lemma near_cases : forall i i', near i i' -> (i = CRLF ++ t /\ i' = CRLF ++ t') \/ exists c r r', i = c :: r /\ i' = c :: r' /\ near r r'.
Proof. intros i i' ([|c z] & -> & ->); [now left|right]. exists c, (z ++ CRLF ++ t), (z ++ CRLF ++ t'). split; [reflexivity|]. split; [reflexivity|]. now exists z. Qed.
Lemma near_starts : forall e i i', no_cr e -> near i i' -> starts_with i e = starts_with i' e.
Proof.
  induction e as [|a e IH]; intros i i' He N; [now destruct i, i'|]. apply near_cases in N as [[-> ->]|(c & r & r' & -> & -> & N)].
  - cbn [starts_with CRLF app]. destruct (a =? 13) eqn:X; [|reflexivity]. apply N.eqb_eq in X. subst. exfalso. apply He. now left.
  - cbn [starts_with]. rewrite (IH r r'); auto. intros X. apply He. now right.
Qed.
Lemma near_skip : forall e i i', no_cr e -> near i i' -> starts_with i e = true -> near (skipn (length e) i) (skipn (length e) i').
Proof.
  induction e as [|a e IH]; intros i i' He N; [auto|]. apply near_cases in N as [[-> ->]|(c & r & r' & -> & -> & N)]; cbn [starts_with skipn length].
  - intros X. exfalso. apply andb_true_iff in X as [X _]. apply N.eqb_eq in X. subst. apply He. now left.
  - intros X. apply andb_true_iff in X as [_ X]. apply IH; auto. intros Y. apply He. now right.
Qed.
Lemma starts_length : forall e i, starts_with i e = true -> (length e <= length i)%nat.
Proof. intros e i H. apply starts_with_spec in H as [r ->]. rewrite app_length. lia. Qed.
Lemma local_tag : forall e m, no_cr e -> local (tag e m).
Proof.
  intros e m He i i' N. unfold tag. rewrite <- (near_starts e i i' He N). destruct (starts_with i e) eqn:S; [|exact I].
  pose proof (starts_length _ _ S). pose proof S as S'. rewrite (near_starts e i i' He N) in S'. apply starts_length in S'. unfold unchecked_from.
  destruct (length i <? length e)%nat eqn:?; [lia|]. destruct (length i' <? length e)%nat eqn:?; [lia|]. cbn [bind]. apply lrel_ok. now apply near_skip.
Qed.
Lemma near_nocase : forall e i i', no_cr e -> near i i' -> starts_nocase i e = starts_nocase i' e /\ (starts_nocase i e = true -> near (skipn (length e) i) (skipn (length e) i')).
Proof.
  induction e as [|a e IH]; intros i i' He N; [split; [now destruct i, i'|auto]|]. apply near_cases in N as [[-> ->]|(c & r & r' & -> & -> & N)]; cbn [starts_nocase skipn length].
  - cbn [CRLF app starts_nocase]. destruct (fold_case 13 =? fold_case a) eqn:X; [|split; [reflexivity|discriminate]]. exfalso. apply N.eqb_eq in X. symmetry in X. apply fold_or_swap in X as [->| ->]; apply He; now left.
  - destruct (IH r r') as [H1 H2]; auto; [intros Y; apply He; now right|]. split; [now rewrite H1|]. intros X. apply andb_true_iff in X as [_ X]. auto.
Qed.
Lemma local_tag_no_case : forall E e1 e2 m, nocase_pair e1 e2 = true -> no_cr e1 -> local (tag_no_case E e1 e2 m).
Proof.
  intros E e1 e2 m He Hc i i' N. destruct (near_nocase e1 i i' Hc N) as [H1 H2]. destruct (starts_nocase i e1) eqn:S.
  - symmetry in H1. specialize (H2 eq_refl). apply starts_nocase_spec in S as (n & r & -> & Hn). apply starts_nocase_spec in H1 as (n' & r' & -> & Hn').
    rewrite !tag_no_case_ok by auto. apply lrel_ok. pose proof (nocase_length _ _ Hn). pose proof (nocase_length _ _ Hn').
    rewrite <- H in H2 at 1. rewrite <- H0 in H2. now rewrite !skipn_app_exact in H2.
  - destruct (tag_no_case_err E e1 e2 m i) as [x ->]; auto. destruct (tag_no_case_err E e1 e2 m i') as [x' ->]; auto. exact I.
Qed.

Lemma tail_ends : forall f, f 13 = false -> forall x, ends f (CRLF ++ x).
Proof. intros f H x. cbn. exact H. Qed.
Lemma near_span : forall f, f 13 = false -> forall i i', near i i' -> fst (span f i) = fst (span f i') /\ near (snd (span f i)) (snd (span f i')).
Proof.
  intros f Hf i i' (z & -> & ->). induction z as [|c z IH].
  - cbn [app CRLF span]. rewrite Hf. split; [reflexivity|]. now exists [].
  - cbn [app span]. destruct (f c).
    + destruct (span f (z ++ CRLF ++ t)), (span f (z ++ CRLF ++ t')). cbn in *. destruct IH as [-> IH]. auto.
    + split; [reflexivity|]. now exists (c :: z).
Qed.
Lemma local_take_while : forall f, f 13 = false -> local (take_while f).
Proof.
  intros f Hf i i' N. unfold take_while. destruct (near_span f Hf i i' N) as [H1 H2]. destruct (span f i), (span f i'). cbn in *. subst. apply lrel_bind_p. intros. now apply lrel_ok.
Qed.
Lemma local_take_while1 : forall f, f 13 = false -> local (take_while1 f).
Proof.
  intros f Hf i i' N. destruct (near_span f Hf i i' N) as [H1 H2]. unfold take_while1. destruct (near_cases i i' N) as [[-> ->]|(c & r & r' & -> & -> & _)].
  - cbn [CRLF app]. rewrite Hf. exact I.
  - destruct (negb (f c)); [exact I|]. destruct (span f (c :: r)), (span f (c :: r')). cbn in H1, H2. subst. apply lrel_bind_p. intros. now apply lrel_ok.
Qed.
Lemma local_index : forall c i i', c <> 13 -> near i i' -> starts_with i [c] = true -> rrel near (index_from i 1) (index_from i' 1).
Proof.
  intros c i i' Hc N. destruct (near_cases i i' N) as [[-> ->]|(d & r & r' & -> & -> & N')]; cbn [starts_with CRLF app]; intros X.
  - apply andb_true_iff in X as [X _]. apply N.eqb_eq in X. congruence.
  - unfold index_from. cbn [length]. destruct (S (length r) <? 1)%nat eqn:?; [lia|]. destruct (S (length r') <? 1)%nat eqn:?; [lia|]. exact N'.
Qed.
Lemma local_prefixed : forall A (p : parser A) e, no_cr e -> local p -> local (prefixed p e).
Proof.
  intros A p e He Hp i i' N. unfold prefixed. rewrite <- (near_starts e i i' He N). destruct (starts_with i e) eqn:S; [|exact I].
  pose proof (starts_length _ _ S). pose proof S as S'. rewrite (near_starts e i i' He N) in S'. apply starts_length in S'. unfold unchecked_from.
  destruct (length i <? length e)%nat eqn:?; [lia|]. destruct (length i' <? length e)%nat eqn:?; [lia|]. cbn [bind]. apply Hp. now apply near_skip.
Qed.
Lemma local_digit : local digit.
Proof.
  intros i i' N. destruct (near_cases i i' N) as [[-> ->]|(c & r & r' & -> & -> & N')]; [exact I|]. cbn [digit]. destruct (is_digit c); [|exact I]. now apply lrel_ok.
Qed.

(* the line end *)
Lemma starts_nil : forall i, starts_with i [] = true.
Proof. now intros []. Qed.
Lemma later_tag : forall m i i', near i i' -> lrel later (tag CRLF m i) (tag CRLF m i').
Proof.
  intros m i i' (z & -> & ->). destruct z as [|a [|b z]].
  - cbn [app]. rewrite !tag_app. apply lrel_ok. now right.
  - cbn. unfold tag. cbn [app CRLF starts_with]. destruct (13 =? a); exact I.
  - unfold tag. cbn [app CRLF starts_with]. destruct (13 =? a); [|exact I]. destruct (10 =? b); [|exact I]. cbn [andb]. rewrite !starts_nil. unfold unchecked_from. cbn [length CRLF].
    repeat match goal with |- context [(?a <? 2)%nat] => let X := fresh in destruct (a <? 2)%nat eqn:X; [lia|clear X] end. cbn [bind skipn]. apply lrel_ok. left. now exists z.
Qed.

Ltac no_cr_tac := let X := fresh in intros X; vm_compute in X; intuition discriminate.
Hint Resolve local_digit : loc.
Hint Extern 1 (_ = false) => reflexivity : loc.
Ltac loc_p := (* local p *)
  lazymatch goal with
  | |- local (match_parsers _) => apply local_match; repeat (apply Forall_cons; [loc_p|]); apply Forall_nil
  | |- local (optional _) => apply local_optional; loc_p
  | |- local (pmap _ _) => apply local_pmap; loc_p
  | |- local (pair_p _ _) => apply local_pair; loc_p
  | |- local (triplet _ _ _) => apply local_triplet; loc_p
  | |- local (collect_pair _ _) => apply local_collect_pair; loc_p
  | |- local (tag _ _) => apply local_tag; no_cr_tac
  | |- local (tag_no_case _ _ _ _) => apply local_tag_no_case; [vm_compute; reflexivity|no_cr_tac]
  | |- local (take_while _) => apply local_take_while; reflexivity
  | |- local (take_while1 _) => apply local_take_while1; reflexivity
  | |- local (many _) => apply local_many; [loc_p|solve [eauto with loc]]
  | |- local (many1 _) => apply local_many1; [loc_p|solve [eauto with loc]]
  | |- local (collect_many _) => apply local_collect_many; [loc_p|solve [eauto with loc]]
  | |- local (prefixed _ _) => apply local_prefixed; [no_cr_tac|loc_p]
  | |- local (if ?b then _ else _) => destruct b; loc_p
  | |- local (fun _ => _) => let N := fresh "N" in intros ? ? N; cbv beta; loc_x
  | |- local _ => solve [eauto with loc]
  end
with loc_x := (* lrel near x y *)
  lazymatch goal with
  | |- lrel later (bind (tag CRLF _ _) _) _ => apply lrel_bind with (Q := later); [apply later_tag; assumption|intros ? ? ? ?; cbv beta iota; loc_x]
  | |- lrel _ (bind ?x _) (bind ?y _) =>
    first [ constr_eq x y; apply lrel_bind_p; intros ?; cbv beta iota; loc_x
          | lazymatch type of x with
            | res bytes => apply lrel_bind_r with (Q := near); [loc_x|intros ? ? ?; cbv beta iota; loc_x]
            | _ => apply lrel_bind with (Q := near); [loc_x|intros ? ? ? ?; cbv beta iota; loc_x]
            end ]
  | |- lrel _ (attempt _ _ _) _ => apply lrel_attempt with (Q := near); [loc_x|intros ? ? ? ?; cbv beta iota; loc_x|loc_x]
  | |- rrel _ (attempt _ _ _) _ => apply rrel_attempt with (Q := near); [loc_x|intros ? ? ? ?; cbv beta iota; loc_x|loc_x]
  | |- lrel _ (map_err _ _) _ => apply lrel_map_err; loc_x
  | |- lrel _ (Ok _) (Ok _) => apply lrel_ok; assumption
  | |- rrel _ (Ok _) (Ok _) => assumption
  | |- lrel _ (Err _) (Err _) => exact I
  | |- lrel _ (match ?a with (_, _) => _ end) _ => destruct a; cbv beta iota; loc_x
  | |- lrel _ (if ?b then _ else _) (if ?b then _ else _) => destruct b; loc_x
  | |- lrel _ (?p ?i) (?p ?j) => let H := fresh in assert (H : local p) by loc_p; apply (H i j); assumption
  | |- rrel _ (?p ?i) (?p ?j) => solve [eauto with loc]
  end.

(* ---- white space ---- *)
Lemma local_quoted_pair : local quoted_pair.
Proof.
  unfold quoted_pair. intros i i' N. cbv beta. eapply lrel_bind; [loc_x|]. intros r r' _ N'. cbv beta iota.
  destruct (near_cases r r' N') as [[-> ->]|(c & s & s' & -> & -> & N2)]; [exact I|]. destruct (_ || _); [|exact I]. unfold unchecked_from, unchecked_to. cbn [length skipn firstn].
  destruct (S (length s) <? 1)%nat eqn:?; [lia|]. destruct (S (length s') <? 1)%nat eqn:?; [lia|]. cbn [bind]. apply lrel_bind_p. intros. now apply lrel_ok.
Qed.
Lemma take_while1_stop : forall f x, ends f x -> exists e, take_while1 f x = Err e.
Proof. intros f [|c x] H; cbn in *; [eauto|]. rewrite H. cbn. eauto. Qed.
Lemma local_fws : local fws.
Proof.
  intros i i' N. unfold fws. eapply lrel_bind with (Q := later).
  - unfold optional. eapply lrel_attempt with (Q := later); [|intros; now apply lrel_ok|apply lrel_ok; now left].
    unfold pair_p. eapply lrel_bind; [apply local_take_while; [reflexivity|exact N]|]. intros. eapply lrel_bind; [apply later_tag; eassumption|]. intros. now apply lrel_ok.
  - intros r r' b [N'|[-> ->]]; cbv beta iota.
    + eapply lrel_bind; [apply local_take_while1; [reflexivity|exact N']|]. intros. destruct b as [[? ?]|]; now apply lrel_ok.
    + destruct (take_while1_stop is_wsp t t_ends) as [e ->]. destruct (take_while1_stop is_wsp t' t_ends') as [e' ->]. exact I.
Qed.
Hint Resolve local_quoted_pair local_fws : loc.
Lemma sound_fws_ccontent : forall K d j, (length j < d)%nat -> post K (pair_p (optional fws) (match_parsers [take_while1 is_ctext; quoted_pair; comment_d d]) j) j fws_ccontent.
Proof.
  intros K d j Hj. eapply post_weaken.
  - apply (post_pair_p _ _ K (optional fws) _ j
        (fun c o => rfc_oFWS c (match o with Some v => v | None => [] end)) (fun c _ => ccontent_chunk c)).
    + apply sound_ofws.
    + intros j' Hj'. apply post_Forall_match. repeat apply Forall_cons; [| | |apply Forall_nil].
      * eapply post_weaken; [apply (sound_take_while1 _ _ _ _ ctext_spec ctext_ascii)|]. intros ? ? [_ ?]. now left.
      * eapply post_weaken; [apply sound_quoted_pair|]. intros ? ? (x & _ & ?). right. econstructor; eauto.
      * eapply post_weaken; [apply sound_comment_d; lia|]. intros ? ? [_ ?]. right. now constructor.
  - intros c a (c1 & c2 & -> & H1 & H2). exists c1, c2. auto.
Qed.
Lemma local_comment_d : forall d d' i i', near i i' -> (length i < d)%nat -> (length i' < d')%nat -> lrel near (comment_d d i) (comment_d d' i').
Proof.
  induction d as [|d IH]; intros [|d'] i i' N L L'; try lia. cbn [comment_d].
  pose proof (post_tag never (bs "(") "TAG ERROR: A comment must start with a `(`." i) as T. pose proof (post_tag never (bs "(") "TAG ERROR: A comment must start with a `(`." i') as T'.
  assert (N1 : lrel near (tag (bs "(") "TAG ERROR: A comment must start with a `(`." i) (tag (bs "(") "TAG ERROR: A comment must start with a `(`." i')) by loc_x.
  destruct (tag _ _ i) as [[r u]|e|c], (tag _ _ i') as [[r' u']|e'|c']; cbn in N1; try contradiction; cbn [bind]; auto. destruct N1 as [<- N1].
  destruct T as (a & -> & ->), T' as (a' & -> & ->). rewrite app_length in L, L'. cbn [length bs map list_ascii_of_string] in L, L'.
  eapply lrel_bind.
  - unfold ignore_many, many. eapply lrel_bind; [|intros; apply lrel_ok; eassumption].
    apply many_fuel_local with (P := fun x y => (length x < d)%nat /\ (length y < d')%nat); [intros; lia| |exact N1|split; lia|lia|lia].
    intros x x' Nx [Lx Lx']. split; [|split; (eapply post_shorter; [apply sound_fws_ccontent with (K := never); assumption|apply fws_ccontent_nonempty])].
    unfold pair_p. pose proof (sound_ofws never x) as O. pose proof (sound_ofws never x') as O'. assert (Nf : lrel near (optional fws x) (optional fws x')) by loc_x.
    destruct (optional fws x) as [[y o]|e|c], (optional fws x') as [[y' o']|e'|c']; cbn in Nf; try contradiction; cbn [bind]; auto. destruct Nf as [<- Nf].
    destruct O as (w & -> & _), O' as (w' & -> & _). rewrite app_length in Lx, Lx'. eapply lrel_bind; [|intros; apply lrel_ok; eassumption].
    cbn [match_parsers]. eapply lrel_attempt; [apply local_take_while1; [reflexivity|exact Nf]|intros; apply lrel_ok; eassumption|].
    eapply lrel_attempt; [apply local_quoted_pair; exact Nf|intros; apply lrel_ok; eassumption|].
    eapply lrel_attempt; [apply IH; [exact Nf|lia|lia]|intros; apply lrel_ok; eassumption|exact I].
  - intros ? ? ? ?. cbv beta iota. loc_x.
Qed.

Lemma local_comment : local comment.
Proof. intros i i' N. unfold comment. apply local_comment_d; [exact N|lia|lia]. Qed.
Hint Resolve local_comment : loc.
Lemma local_fws_comment : local fws_comment.
Proof. unfold fws_comment. loc_p. Qed.
Lemma progress_fws_comment : progress fws_comment.
Proof. intros i. eapply post_shorter; [apply sound_fws_comment with (K := never)|]. intros. now apply fws_then_comment_nonempty. Qed.
Hint Resolve local_fws_comment progress_fws_comment local_many : loc.
Lemma local_cfws : local cfws.
Proof. unfold cfws, real_cfws. loc_p. Qed.
Hint Resolve local_cfws : loc.
Lemma local_skip : forall i i', near i i' -> rrel near (skip_cfws i) (skip_cfws i').
Proof. intros i i' N. unfold skip_cfws. loc_x. Qed.
Hint Resolve local_skip : loc.

(* ---- words ---- *)
Lemma progress_chars : forall f P, (forall c, f c = true <-> P c) -> (forall c, f c = true -> ascii_byte c) -> progress (take_while1 f).
Proof. intros f P H1 H2 i. eapply post_shorter; [apply (sound_take_while1 never f P i H1 H2)|]. now intros c a [_ [H _]]. Qed.
Lemma local_quoted_string_step : local quoted_string_step.
Proof. unfold quoted_string_step. loc_p. Qed.
Lemma progress_quoted_string_step : progress quoted_string_step.
Proof.
  intros i. eapply post_shorter; [apply sound_quoted_string_step with (K := never)|]. intros c a (w & x & t1 & v & -> & _ & _ & H & _) X. apply app_eq_nil in X. tauto.
Qed.
Lemma local_quoted_string : local quoted_string.
Proof.
  intros i i' N. unfold quoted_string. apply lrel_bind_r with (Q := near); [loc_x|]. intros r r' N1. rewrite <- (near_starts [DQUOTE] r r') by (auto; no_cr_tac).
  destruct (starts_with r [DQUOTE]) eqn:S; [|exact I]. apply lrel_bind_r with (Q := near); [apply (local_index DQUOTE); auto; discriminate|]. intros r2 r2' N2.
  apply lrel_bind with (Q := near); [apply local_collect_many; auto using local_quoted_string_step, progress_quoted_string_step|]. intros r3 r3' o N3. cbv beta iota.
  apply lrel_bind with (Q := near); [loc_x|]. intros r4 r4' o' N4. cbv beta iota. rewrite <- (near_starts [DQUOTE] r4 r4') by (auto; no_cr_tac).
  destruct (starts_with r4 [DQUOTE]) eqn:S'; [|exact I]. apply lrel_bind_r with (Q := near); [apply (local_index DQUOTE); auto; discriminate|]. intros r5 r5' N5. loc_x.
Qed.
Hint Resolve local_quoted_string : loc.
Lemma local_encoded_word : forall E, local (encoded_word E).
Proof. intros E. unfold encoded_word, ew_charset, ew_encoding, encoded_text. loc_p. Qed.
Hint Resolve local_encoded_word : loc.
Lemma local_atom : local atom.
Proof. unfold atom. loc_p. Qed.
Lemma local_dot_atom_step : forall E, local (dot_atom_step E).
Proof.
  intros E i i' N. unfold dot_atom_step. rewrite <- (near_starts (bs ".") i i') by (auto; no_cr_tac). destruct (starts_with i (bs ".")) eqn:S; [|exact I].
  apply lrel_bind_r with (Q := near); [apply (local_index 46); auto; discriminate|]. intros r r' N1. destruct (f_compatibility_fixes E); loc_x.
Qed.
Lemma progress_dot_atom_step : forall E, progress (dot_atom_step E).
Proof. intros E i. eapply post_shorter; [apply sound_dot_atom_step with (K := never)|]. intros c a [_ (x & -> & _)]. discriminate. Qed.
Lemma local_dot_atom_text : forall E, local (dot_atom_text E).
Proof.
  intros E. assert (H := local_dot_atom_step E). assert (H' := progress_dot_atom_step E). unfold dot_atom_text. loc_p.
Qed.
Hint Resolve local_atom local_dot_atom_text : loc.
Lemma local_dot_atom : forall E, local (dot_atom E).
Proof. intros E. unfold dot_atom. loc_p. Qed.
Hint Resolve local_dot_atom : loc.
Lemma local_word : local word.
Proof. unfold word. loc_p. Qed.
Hint Resolve local_word : loc.
Lemma local_phrase_word : forall E, local (phrase_word E).
Proof. intros E. unfold phrase_word. loc_p. Qed.
Lemma progress_phrase_word : forall E, progress (phrase_word E).
Proof. intros E i. eapply post_shorter; [apply sound_phrase_word with (K := never)|]. apply phrase_word_nonempty. Qed.
Lemma local_phrase : forall E, local (phrase E).
Proof. intros E. apply local_many1; [apply local_phrase_word|apply progress_phrase_word]. Qed.
Lemma progress_phrase : forall E, progress (phrase E).
Proof. intros E i. eapply post_shorter; [apply sound_phrase with (K := never)|]. apply phrase_nonempty. Qed.
Hint Resolve local_phrase progress_phrase : loc.

(* ---- text ---- *)
Lemma local_unstructured_step : local unstructured_step.
Proof. unfold unstructured_step. loc_p. Qed.
Lemma progress_unstructured_step : progress unstructured_step.
Proof. intros i. eapply post_shorter; [apply sound_unstructured_step with (K := never)|]. intros c a (w & x & c1 & -> & _ & _ & [H _]) X. apply app_eq_nil in X. tauto. Qed.
Lemma local_blanks : local (ignore_many (take_while1 is_wsp)).
Proof. apply local_ignore_many; [loc_p|exact (progress_chars _ _ wsp_spec wsp_ascii)]. Qed.
Hint Resolve local_blanks : loc.
Lemma local_unstructured : local unstructured.
Proof. assert (H := local_unstructured_step). assert (H' := progress_unstructured_step). unfold unstructured. loc_p. Qed.
Lemma local_mime_step : forall E b, local (mime_unstructured_step E b).
Proof. intros E b. unfold mime_unstructured_step. loc_p. Qed.
Lemma progress_mime_step : forall E b, progress (mime_unstructured_step E b).
Proof.
  intros E b i r a. unfold mime_unstructured_step. pose proof (sound_oblank never i) as O. destruct (attempt (fws i) _ _) as [[j w]|e|k]; cbn [bind]; try discriminate. destruct O as (c & -> & _).
  pose proof (sound_encoded_word E never j) as W. destruct (encoded_word E j) as [[j' x]|e|k]; cbn [attempt]; try discriminate.
  - destruct W as (c' & -> & W). apply encoded_word_nonempty in W. destruct b; inversion 1; subst; rewrite !app_length; destruct c'; cbn; [easy|lia|easy|lia].
  - pose proof (progress_chars _ _ vchar_spec vchar_ascii j) as V. destruct (take_while1 is_vchar j) as [[j' x]|e'|k]; cbn [attempt]; try discriminate. specialize (V _ _ eq_refl). inversion 1; subst. rewrite app_length. lia.
Qed.
Lemma local_mime_loop : forall E n n' b i i', near i i' -> (length i < n)%nat -> (length i' < n')%nat -> lrel near (mime_unstructured_loop E n b i) (mime_unstructured_loop E n' b i').
Proof.
  intros E. induction n as [|n IH]; intros [|n'] b i i' N L L'; try lia. cbn [mime_unstructured_loop]. pose proof (local_mime_step E b i i' N) as H. pose proof (progress_mime_step E b i) as P. pose proof (progress_mime_step E b i') as P'.
  destruct (mime_unstructured_step E b i) as [[r [x f]]|e|k], (mime_unstructured_step E b i') as [[r' [x' f']]|e'|k']; cbn in H; try contradiction; cbn [attempt]; [|now apply lrel_ok|exact H].
  destruct H as [X N']. inversion X; subst. specialize (P _ _ eq_refl). specialize (P' _ _ eq_refl). apply lrel_bind with (Q := near); [apply IH; [exact N'|lia|lia]|]. intros. now apply lrel_ok.
Qed.
Lemma local_mime_unstructured : forall E, local (mime_unstructured E).
Proof. intros E i i' N. unfold mime_unstructured. apply lrel_bind with (Q := near); [apply local_mime_loop; [exact N|lia|lia]|]. intros. cbv beta iota. loc_x. Qed.
Hint Resolve local_unstructured local_mime_unstructured : loc.
Lemma local_text_value : forall E, local (text_value E).
Proof. intros E. unfold text_value. loc_p. Qed.
Hint Resolve local_text_value : loc.

(* ---- dates ---- *)
Lemma local_name3 : forall V (table : list (bytes * V)) e e', Forall (fun kv => no_cr (fst kv)) table ->
  local (fun i => if (3 <=? length i)%nat then match map_get table (lowercase (firstn 3 i)) with Some d => Ok (skipn 3 i, d) | None => Err e end else Err e').
Proof.
  intros V table e e' Ht i i' N. assert (G : forall k, In 13 k -> map_get table k = None).
  { intros k Hk. induction Ht as [|[k' v] table Hv Ht IH]; [reflexivity|]. cbn [map_get]. destruct (bytes_eqb k k') eqn:X; [|exact IH]. apply bytes_eqb_true in X. subst. now exfalso. }
  destruct N as (z & -> & ->). destruct z as [|a [|b [|c z]]].
  - assert (G0 : forall x, map_get table (lowercase (firstn 3 ([] ++ CRLF ++ x))) = None) by (intros; apply G; now left).
    rewrite (G0 t), (G0 t'). destruct (3 <=? _)%nat, (3 <=? _)%nat; exact I.
  - cbn [length app CRLF firstn Nat.leb]. rewrite !G by (right; now left). exact I.
  - cbn [length app CRLF firstn Nat.leb]. rewrite !G by (right; right; now left). exact I.
  - cbn [length app firstn Nat.leb skipn]. destruct (map_get table _); [|exact I]. apply lrel_ok. now exists z.
Qed.
Lemma local_day_name : local day_name.
Proof. apply local_name3. repeat (apply Forall_cons; [no_cr_tac|]). apply Forall_nil. Qed.
Lemma local_month : local month.
Proof. apply local_name3. repeat (apply Forall_cons; [no_cr_tac|]). apply Forall_nil. Qed.
Hint Resolve local_day_name local_month : loc.
Lemma local_two_digits : forall E, local (two_digits E).
Proof. intros E. unfold two_digits. loc_p. Qed.
Hint Resolve local_two_digits : loc.
Lemma local_time_of_day : forall E, local (time_of_day E).
Proof.
  intros E i i' N. unfold time_of_day. apply lrel_bind with (Q := near); [loc_x|]. intros r r' h N1. cbv beta iota. destruct (23 <? h); [exact I|]. apply lrel_bind with (Q := near); [loc_x|]. intros r2 r2' ? N2. cbv beta iota.
  apply lrel_bind with (Q := near); [loc_x|]. intros r3 r3' m N3. cbv beta iota. destruct (59 <? m); [exact I|]. rewrite <- (near_starts (bs ":") r3 r3') by (auto; no_cr_tac). destruct (starts_with r3 (bs ":")) eqn:S; [|loc_x].
  apply lrel_bind_r with (Q := near); [apply (local_index 58); auto; discriminate|]. intros r4 r4' N4. loc_x.
Qed.
Lemma local_zone : forall E, local (zone E).
Proof.
  intros E i i' N. unfold zone. apply lrel_bind with (Q := near); [loc_x|]. intros r r' ? N1. cbv beta iota. destruct (near_cases r r' N1) as [[-> ->]|(c & s & s' & -> & -> & N2)]; [exact I|].
  apply lrel_bind_p. intros sign. eapply lrel_bind_r with (Q := near); [|intros; loc_x]. unfold index_from. cbn [length skipn].
  destruct (S (length s) <? 1)%nat eqn:?; [lia|]. destruct (S (length s') <? 1)%nat eqn:?; [lia|]. exact N2.
Qed.
Hint Resolve local_time_of_day local_zone : loc.
Lemma local_date_time : forall E, local (date_time E).
Proof. intros E. unfold date_time, date, day, year, time, day_of_week. loc_p. Qed.
Hint Resolve local_date_time : loc.

(* ---- addresses ---- *)
Lemma progress_prefixed : forall A (p : parser A) e, progress p -> progress (prefixed p e).
Proof.
  intros A p e H i r a. unfold prefixed. destruct (starts_with i e) eqn:S; [|discriminate]. apply starts_with_spec in S as [j ->]. rewrite unchecked_from_app. cbn [bind]. intros X.
  apply H in X. rewrite app_length. lia.
Qed.
Lemma progress_message_id : forall E, progress (message_id E).
Proof. intros E i. eapply post_shorter; [apply sound_message_id with (K := never)|]. apply msg_id_nonempty. Qed.
Lemma progress_mailbox : forall E, progress (mailbox E).
Proof. intros E i. eapply post_shorter; [apply sound_mailbox with (K := never)|]. apply mailbox_nonempty. Qed.
Lemma progress_address : forall E, progress (address E).
Proof. intros E i. eapply post_shorter; [apply sound_address with (K := never)|]. intros c a H. inversion H; subst; [eapply mailbox_nonempty|eapply group_nonempty]; eassumption. Qed.
Lemma progress_domain_literal_step : progress domain_literal_step.
Proof. intros i. eapply post_shorter; [apply sound_domain_literal_step with (K := never)|]. intros c a H X. subst. destruct H as (w & y & H & H1 & H2). destruct H2 as [H2 _]. symmetry in H. apply app_eq_nil in H. tauto. Qed.
Hint Resolve progress_prefixed progress_message_id progress_mailbox progress_address progress_domain_literal_step : loc.
Lemma local_message_id : forall E, local (message_id E).
Proof. intros E. unfold message_id, no_fold_litteral. loc_p. Qed.
Lemma local_domain : forall E, local (domain E).
Proof. intros E. unfold domain, domain_literal, domain_literal_step. assert (H := progress_domain_literal_step). unfold domain_literal_step in H. loc_p. Qed.
Hint Resolve local_message_id local_domain : loc.
Lemma local_addr_spec : forall E, local (addr_spec E).
Proof. intros E. unfold addr_spec, local_part. loc_p. Qed.
Hint Resolve local_addr_spec : loc.
Lemma local_angle_addr : forall E, local (angle_addr E).
Proof. intros E. unfold angle_addr. loc_p. Qed.
Hint Resolve local_angle_addr : loc.
Lemma local_mailbox : forall E, local (mailbox E).
Proof. intros E. unfold mailbox, name_addr. loc_p. Qed.
Hint Resolve local_mailbox : loc.
Lemma local_mailbox_list : forall E, local (mailbox_list E).
Proof. intros E. unfold mailbox_list. loc_p. Qed.
Hint Resolve local_mailbox_list : loc.
Lemma local_group : forall E, local (group E).
Proof. intros E. unfold group. loc_p. Qed.
Hint Resolve local_group : loc.
Lemma local_address : forall E, local (address E).
Proof. intros E. unfold address. loc_p. Qed.
Hint Resolve local_address : loc.
Lemma local_address_list : forall E, local (address_list E).
Proof. intros E. unfold address_list. loc_p. Qed.
Hint Resolve local_address_list : loc.
Lemma local_bcc_value : forall E, local (bcc_value E).
Proof. intros E. unfold bcc_value. loc_p. Qed.
Lemma local_keywords_value : forall E, local (keywords_value E).
Proof. intros E. unfold keywords_value. loc_p. Qed.
Lemma local_return_path_value : forall E, local (return_path_value E).
Proof. intros E. unfold return_path_value, empty_path. loc_p. Qed.
Lemma local_received_token : forall E, local (received_token_parser E).
Proof. intros E. unfold received_token_parser. loc_p. Qed.
Lemma progress_received_token : forall E, progress (received_token_parser E).
Proof. intros E i. eapply post_shorter; [apply sound_received_token with (K := never)|]. apply received_token_nonempty. Qed.
Hint Resolve local_bcc_value local_keywords_value local_return_path_value local_received_token progress_received_token : loc.
Lemma local_received_value : forall E, local (received_value E).
Proof. intros E. unfold received_value. loc_p. Qed.
Hint Resolve local_received_value : loc.

(* ---- MIME ---- *)
Lemma local_number_loop : forall n n' k i i', near i i' -> (length i < n)%nat -> (length i' < n')%nat -> lrel near (u8_number_loop n k i) (u8_number_loop n' k i').
Proof.
  induction n as [|n IH]; intros [|n'] k i i' N L L'; try lia. cbn [u8_number_loop]. destruct (near_cases i i' N) as [[-> ->]|(c & r & r' & -> & -> & N')]; [apply lrel_ok; exact N|].
  cbn [digit]. destruct (is_digit c); cbn [attempt]; [|apply lrel_ok; exact N]. apply lrel_bind_p. intros. apply lrel_bind_p. intros. cbn [length] in L, L'. apply IH; [exact N'|lia|lia].
Qed.
Lemma local_u8_number : local u8_number.
Proof. intros i i' N. unfold u8_number. apply lrel_bind with (Q := near); [loc_x|]. intros. cbv beta iota. apply local_number_loop; [assumption|lia|lia]. Qed.
Lemma local_inline : local ignore_inline_cfws.
Proof. unfold ignore_inline_cfws. loc_p. Qed.
Lemma local_token : local token.
Proof. unfold token. loc_p. Qed.
Lemma local_indexed_name : local indexed_name.
Proof.
  intros i i' N. unfold indexed_name. apply lrel_bind with (Q := near); [loc_x|]. intros r r' name N1. cbv beta iota. apply lrel_bind with (Q := near); [loc_x|]. intros r2 r2' index N2. cbv beta iota.
  apply lrel_bind_p. intros idx. apply lrel_bind with (Q := near).
  - destruct (near_cases r2 r2' N2) as [[-> ->]|(c & s & s' & -> & -> & N3)]; cbv iota; [apply lrel_ok; exact N2|]. destruct (c =? 42); [|now apply lrel_ok].
    apply lrel_bind_r with (Q := near); [|intros; now apply lrel_ok]. unfold index_from. cbn [length skipn]. destruct (S (length s) <? 1)%nat eqn:?; [lia|]. destruct (S (length s') <? 1)%nat eqn:?; [lia|]. exact N3.
  - intros r3 r3' b N3. cbv beta iota. destruct (near_cases r3 r3' N3) as [[-> ->]|(c & s & s' & -> & -> & N4)]; cbv iota; [exact I|]. destruct (c =? 61); [|exact I]. now apply lrel_ok.
Qed.
Hint Resolve local_u8_number local_inline local_token local_indexed_name : loc.
Lemma local_parameter : local parameter.
Proof. unfold parameter. loc_p. Qed.
Lemma progress_parameter : progress parameter.
Proof. intros i. eapply post_shorter; [apply sound_parameter with (K := never)|]. apply param_nonempty. Qed.
Hint Resolve local_parameter progress_parameter : loc.
Lemma local_mime_type : forall E, local (mime_type E).
Proof. intros E. unfold mime_type. loc_p. Qed.
Lemma local_encoding_name : forall E, local (encoding_name E).
Proof. intros E. unfold encoding_name. loc_p. Qed.
Lemma local_disposition_kind : forall E, local (disposition_kind E).
Proof. intros E. unfold disposition_kind. loc_p. Qed.
Lemma local_disposition_item : forall E, local (disposition_item_parser E).
Proof. intros E. unfold disposition_item_parser, filename_parameter, date_parameter. loc_p. Qed.
Lemma progress_disposition_item : forall E, progress (disposition_item_parser E).
Proof. intros E i. eapply post_shorter; [apply sound_disposition_item with (K := never)|]. apply item_nonempty. Qed.
Hint Resolve local_mime_type local_encoding_name local_disposition_kind local_disposition_item progress_disposition_item : loc.

(* ---- headers ---- *)
Definition hlocal {A} (p : parser A) : Prop := forall i i', near i i' -> lrel later (p i) (p i').
Lemma hlocal_header : forall A E e1 e2 m (p : parser A) m', nocase_pair (bs e1) (bs e2) = true -> no_cr (bs e1) -> local p -> hlocal (header E e1 e2 m p m').
Proof.
  intros A E e1 e2 m p m' H1 H2 Hp i i' N. unfold header. apply lrel_bind with (Q := near); [apply local_tag_no_case; assumption|]. intros. cbv beta iota. loc_x.
Qed.
Lemma hlocal_pmap : forall A B (f : A -> B) (p : parser A), hlocal p -> hlocal (pmap f p).
Proof. intros A B f p H i i' N. unfold pmap. apply lrel_bind with (Q := later); [now apply H|]. intros. now apply lrel_ok. Qed.
Lemma hlocal_match : forall A (ps : list (parser A)), Forall hlocal ps -> hlocal (match_parsers ps).
Proof. intros A ps H i i' N. apply lrel_match. eapply Forall_impl; [|exact H]. intros p Hp. now apply Hp. Qed.
Lemma hlocal_resent : forall A E m (p : parser A), hlocal p -> hlocal (resent E m p).
Proof. intros A E m p H i i' N. unfold resent. apply lrel_bind with (Q := near); [loc_x|]. intros. now apply H. Qed.
Ltac hdr := lazymatch goal with |- hlocal (?f _) => unfold f end; apply hlocal_header; [vm_compute; reflexivity|no_cr_tac|loc_p].
Ltac hdr_mime := let N := fresh in intros ? ? N; cbv beta; loc_x.
Lemma hlocal_return_path : forall E, hlocal (return_path E).
Proof. intros E. hdr. Qed.
Lemma hlocal_received : forall E, hlocal (received E).
Proof. intros E. hdr. Qed.
Lemma hlocal_resent_field : forall E, hlocal (resent_field E).
Proof.
  intros E. unfold resent_field. apply hlocal_match. repeat lazymatch goal with |- Forall _ (_ :: _) => apply Forall_cons; [apply hlocal_pmap; apply hlocal_resent; hdr|] end. apply Forall_nil.
Qed.
Lemma hlocal_unknown : forall E, hlocal (unknown E).
Proof. intros E. unfold unknown. hdr_mime. Qed.
Lemma hlocal_mime_version : forall E, hlocal (mime_version E).
Proof. intros E. unfold mime_version. hdr_mime. Qed.
Lemma hlocal_content_type : forall E, hlocal (content_type E).
Proof. intros E. unfold content_type. hdr_mime. Qed.
Lemma hlocal_content_transfer_encoding : forall E, hlocal (content_transfer_encoding E).
Proof. intros E. unfold content_transfer_encoding. hdr_mime. Qed.
Lemma hlocal_content_id : forall E, hlocal (content_id E).
Proof. intros E. unfold content_id. hdr_mime. Qed.
Lemma hlocal_content_description : forall E, hlocal (content_description E).
Proof. intros E. unfold content_description. hdr_mime. Qed.
Lemma hlocal_content_disposition : forall E, hlocal (content_disposition E).
Proof. intros E. unfold content_disposition. hdr_mime. Qed.
Lemma Forall_cfg' : forall A (P : parser A -> Prop) b p l, P p -> Forall P l -> Forall P (cfg b p ++ l).
Proof. intros A P [] p l H Hl; cbn; auto. Qed.
Lemma hlocal_any_field : forall E, hlocal (any_field E).
Proof.
  intros E. unfold any_field, field_parsers. apply hlocal_match.
  repeat lazymatch goal with |- Forall _ (cfg _ _ ++ _) => apply Forall_cfg'; [apply hlocal_pmap; lazymatch goal with
    | |- hlocal (mime_version _) => apply hlocal_mime_version
    | |- hlocal (content_type _) => apply hlocal_content_type
    | |- hlocal (content_transfer_encoding _) => apply hlocal_content_transfer_encoding
    | |- hlocal (content_id _) => apply hlocal_content_id
    | |- hlocal (content_description _) => apply hlocal_content_description
    | |- hlocal (content_disposition _) => apply hlocal_content_disposition
    | |- _ => hdr end|] end.
  apply Forall_cons; [apply hlocal_pmap; apply hlocal_unknown|apply Forall_nil].
Qed.
End Tails.

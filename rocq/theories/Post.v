(* Proof support: a Hoare-style judgement for parsers. [post K x i P] says that the
   call x on input i either returns, having consumed a prefix c of i with P c value, or
   returns an error, or crashes in a way that K allows. *)
From Coq Require Import Lia ZifyBool ZifyNat ZifyN.
From Verif Require Import Base Utf8 CharSets Combinators Rfc5322.

Definition post {A} (K : crash -> Prop) (x : res (bytes * A)) (i : bytes)
    (P : bytes -> A -> Prop) : Prop :=
  match x with
  | Ok (r, a) => exists c, i = c ++ r /\ P c a
  | Err _ => True
  | Crash k => K k
  end.

(* the same for calls that do not return a remaining input *)
Definition ppost {A} (K : crash -> Prop) (x : res A) (P : A -> Prop) : Prop :=
  match x with
  | Ok a => P a
  | Err _ => True
  | Crash k => K k
  end.

Definition never : crash -> Prop := fun _ => False.

Lemma post_weaken : forall A K (x : res (bytes * A)) i (P Q : bytes -> A -> Prop),
  post K x i P -> (forall c a, P c a -> Q c a) -> post K x i Q.
Proof.
  intros A K [[r a]|e|k] i P Q H HPQ; cbn in *; auto.
  destruct H as (c & -> & H). eauto.
Qed.

Lemma ppost_weaken : forall A K (x : res A) (P Q : A -> Prop),
  ppost K x P -> (forall a, P a -> Q a) -> ppost K x Q.
Proof. intros A K [a|e|k] P Q; cbn; auto. Qed.

Lemma post_weakenK : forall A (K K' : crash -> Prop) (x : res (bytes * A)) i P,
  post K x i P -> (forall k, K k -> K' k) -> post K' x i P.
Proof. intros A K K' [[r a]|e|k] i P; cbn; auto. Qed.

Lemma post_ok : forall A K (r : bytes) (a : A) (P : bytes -> A -> Prop),
  P [] a -> post K (Ok (r, a)) r P.
Proof. intros. exists []. auto. Qed.

Lemma post_err : forall A K e i (P : bytes -> A -> Prop), post K (Err e) i P.
Proof. intros. exact I. Qed.

Lemma post_bind : forall A B K (x : res (bytes * A)) (k : bytes * A -> res (bytes * B)) i P Q,
  post K x i P ->
  (forall (c r : bytes) a, i = c ++ r -> P c a -> post K (k (r, a)) r (fun c' b => Q (c ++ c') b)) ->
  post K (bind x k) i Q.
Proof.
  intros A B K [[r a]|e|kk] k i P Q H Hk; cbn in *; auto.
  destruct H as (c & -> & H). specialize (Hk c r a eq_refl H).
  revert Hk; destruct (k (r, a)) as [[r' b]|e|kk]; cbn; auto.
  intros (c' & -> & HQ). exists (c ++ c'). rewrite app_assoc. auto.
Qed.

Lemma post_bind_p : forall A B K (x : res A) (k : A -> res (bytes * B)) i (P : A -> Prop) Q,
  ppost K x P ->
  (forall a, P a -> post K (k a) i Q) ->
  post K (bind x k) i Q.
Proof. intros A B K [a|e|kk] k i P Q H Hk; cbn in *; auto. Qed.

Lemma ppost_bind : forall A B K (x : res A) (k : A -> res B) (P : A -> Prop) Q,
  ppost K x P ->
  (forall a, P a -> ppost K (k a) Q) ->
  ppost K (bind x k) Q.
Proof. intros A B K [a|e|kk] k P Q H Hk; cbn in *; auto. Qed.

(* a parser call inside a call that returns no remaining input *)
Lemma ppost_bind_post : forall A B K (x : res (bytes * A)) (k : bytes * A -> res B) i P Q,
  post K x i P ->
  (forall (c r : bytes) a, i = c ++ r -> P c a -> ppost K (k (r, a)) Q) ->
  ppost K (bind x k) Q.
Proof.
  intros A B K [[r a]|e|kk] k i P Q H Hk; cbn in *; auto.
  destruct H as (c & -> & H). eauto.
Qed.

(* bind of a call returning only a remaining input *)
Definition rpost (K : crash -> Prop) (x : res bytes) (i : bytes) (P : bytes -> Prop) : Prop :=
  match x with
  | Ok r => exists c, i = c ++ r /\ P c
  | Err _ => True
  | Crash k => K k
  end.

Lemma post_bind_r : forall B K (x : res bytes) (k : bytes -> res (bytes * B)) i P Q,
  rpost K x i P ->
  (forall (c r : bytes), i = c ++ r -> P c -> post K (k r) r (fun c' b => Q (c ++ c') b)) ->
  post K (bind x k) i Q.
Proof.
  intros B K [r|e|kk] k i P Q H Hk; cbn in *; auto.
  destruct H as (c & -> & H). specialize (Hk c r eq_refl H).
  revert Hk; destruct (k r) as [[r' b]|e|kk]; cbn; auto.
  intros (c' & -> & HQ). exists (c ++ c'). rewrite app_assoc. auto.
Qed.

Lemma post_attempt : forall A B K (x : res (bytes * A)) (k : bytes * A -> res (bytes * B)) f i P Q,
  post K x i P ->
  (forall (c r : bytes) a, i = c ++ r -> P c a -> post K (k (r, a)) r (fun c' b => Q (c ++ c') b)) ->
  post K f i Q ->
  post K (attempt x k f) i Q.
Proof.
  intros A B K [[r a]|e|kk] k f i P Q H Hk Hf; cbn in *; auto.
  destruct H as (c & -> & H). specialize (Hk c r a eq_refl H).
  revert Hk; destruct (k (r, a)) as [[r' b]|e|kk]; cbn; auto.
  intros (c' & -> & HQ). exists (c ++ c'). rewrite app_assoc. auto.
Qed.

Lemma post_map_err : forall A K (x : res (bytes * A)) e i P,
  post K x i P -> post K (map_err x e) i P.
Proof. intros A K [[r a]|e|kk] e' i P; cbn; auto. Qed.

Lemma post_Forall_match : forall A K (ps : list (parser A)) i P,
  Forall (fun p => post K (p i) i P) ps -> post K (match_parsers ps i) i P.
Proof.
  intros A K ps i P H. induction H as [|p ps Hp Hps IH]; cbn; auto.
  eapply post_attempt; [apply Hp | | exact IH].
  intros c r a Hi HP. apply post_ok. rewrite app_nil_r. exact HP.
Qed.

Lemma post_optional : forall A K (p : parser A) i P,
  post K (p i) i P ->
  post K (optional p i) i (fun c o => match o with Some a => P c a | None => c = [] end).
Proof.
  intros A K p i P H. unfold optional. eapply post_attempt; [exact H| |].
  - intros c r a _ HP. apply post_ok. now rewrite app_nil_r.
  - now apply post_ok.
Qed.

Lemma post_pmap : forall A B K (f : A -> B) (p : parser A) i Q,
  post K (p i) i (fun c a => Q c (f a)) -> post K (pmap f p i) i Q.
Proof.
  intros A B K f p i Q H. unfold pmap. eapply post_bind; [exact H|].
  intros c r a _ HQ. apply post_ok. now rewrite app_nil_r.
Qed.

(* repetition *)
Lemma many_of_impl : forall A (P Q : bytes -> A -> Prop) c l,
  many_of P c l -> (forall c a, P c a -> Q c a) -> many_of Q c l.
Proof. intros A P Q c l H HPQ. induction H; constructor; auto. Qed.

Lemma post_many_fuel : forall A K (p : parser A) (P : bytes -> A -> Prop) n i,
  (forall c a, P c a -> c <> []) ->
  length i < n ->
  (forall j, length j <= length i -> post K (p j) j P) ->
  post K (many_fuel n p i) i (many_of P).
Proof.
  intros A K p P n. induction n as [|n IH]; intros i Hne Hlen Hp; [lia|]. cbn [many_fuel].
  eapply post_attempt; [apply Hp; lia| |].
  - intros c r a -> HP. assert (Hc := Hne _ _ HP).
    assert (length r < n). { rewrite app_length in Hlen. destruct c; [congruence|cbn in Hlen; lia]. }
    eapply post_bind; [apply IH; auto|].
    + intros j Hj. apply Hp. rewrite app_length. lia.
    + intros c' r' l _ Hl. apply post_ok. rewrite app_nil_r. now constructor.
  - apply post_ok. constructor.
Qed.

Lemma post_many_upto : forall A K (p : parser A) (P : bytes -> A -> Prop) i,
  (forall c a, P c a -> c <> []) ->
  (forall j, length j <= length i -> post K (p j) j P) ->
  post K (many p i) i (many_of P).
Proof. intros. apply post_many_fuel; auto. Qed.

Lemma post_many : forall A K (p : parser A) (P : bytes -> A -> Prop) i,
  (forall c a, P c a -> c <> []) ->
  (forall j, post K (p j) j P) ->
  post K (many p i) i (many_of P).
Proof. intros. apply post_many_upto; auto. Qed.

Lemma post_ignore_many : forall A K (p : parser A) (P : bytes -> A -> Prop) i,
  (forall c a, P c a -> c <> []) ->
  (forall j, length j <= length i -> post K (p j) j P) ->
  post K (ignore_many p i) i (fun c _ => exists l, many_of P c l).
Proof.
  intros. unfold ignore_many. eapply post_bind; [eapply post_many_upto; eauto|].
  intros c r a _ Ha. apply post_ok. rewrite app_nil_r. eauto.
Qed.

Lemma post_many1 : forall A K (p : parser A) (P : bytes -> A -> Prop) i,
  (forall c a, P c a -> c <> []) ->
  (forall j, post K (p j) j P) ->
  post K (many1 p i) i (fun c l => l <> [] /\ many_of P c l).
Proof.
  intros. unfold many1. eapply post_bind; [apply H0|]. intros c r a _ Ha.
  eapply post_bind; [eapply post_many; eauto|]. intros c' r' l _ Hl.
  apply post_ok. rewrite app_nil_r. split; [discriminate|]. now constructor.
Qed.

Lemma post_collect_many : forall K (p : parser bytes) (P : bytes -> bytes -> Prop) i,
  (forall c a, P c a -> c <> []) ->
  (forall j, post K (p j) j P) ->
  post K (collect_many p i) i (fun c v => exists l, v = concat l /\ many_of P c l).
Proof.
  intros. unfold collect_many. eapply post_bind; [eapply post_many; eauto|].
  intros c r a _ Ha. apply post_ok. rewrite app_nil_r. eauto.
Qed.

Lemma post_pair_p : forall A B K (p : parser A) (q : parser B) i P Q,
  post K (p i) i P ->
  (forall j, length j <= length i -> post K (q j) j Q) ->
  post K (pair_p p q i) i (fun c ab => exists c1 c2, c = c1 ++ c2 /\ P c1 (fst ab) /\ Q c2 (snd ab)).
Proof.
  intros A B K p q i P Q Hp Hq. unfold pair_p. eapply post_bind; [apply Hp|].
  intros c r a -> Ha. eapply post_bind; [apply Hq; rewrite app_length; lia|].
  intros c' r' b _ Hb. apply post_ok. rewrite app_nil_r. exists c, c'. auto.
Qed.

(* ------------------------------------------------------------------ *)
(* primitive parsers *)

Lemma starts_with_spec : forall p i, starts_with i p = true <-> exists r, i = p ++ r.
Proof.
  induction p as [|x p IH]; intros i.
  - split; intros; [exists i; reflexivity | destruct i; reflexivity].
  - destruct i as [|y i]; cbn.
    + split; [discriminate|intros [r Hr]; discriminate].
    + rewrite andb_true_iff, N.eqb_eq, IH. split.
      * intros [-> [r ->]]. exists r. reflexivity.
      * intros [r Hr]. inversion Hr. eauto.
Qed.

Lemma starts_with_app : forall p r, starts_with (p ++ r) p = true.
Proof. intros. apply starts_with_spec. eauto. Qed.

Lemma skipn_app_exact : forall A (p r : list A), skipn (length p) (p ++ r) = r.
Proof. intros. rewrite skipn_app, skipn_all, Nat.sub_diag. reflexivity. Qed.
Lemma firstn_app_exact : forall A (p r : list A), firstn (length p) (p ++ r) = p.
Proof. intros. rewrite firstn_app, firstn_all, Nat.sub_diag. cbn. apply app_nil_r. Qed.

Lemma unchecked_from_app : forall p r, unchecked_from (p ++ r) (length p) = Ok r.
Proof.
  intros. unfold unchecked_from. rewrite app_length.
  destruct (Nat.ltb_spec (length p + length r) (length p)); [lia|]. now rewrite skipn_app_exact.
Qed.
Lemma unchecked_to_app : forall p r, unchecked_to (p ++ r) (length p) = Ok p.
Proof.
  intros. unfold unchecked_to. rewrite app_length.
  destruct (Nat.ltb_spec (length p + length r) (length p)); [lia|]. now rewrite firstn_app_exact.
Qed.
Lemma index_from_app : forall p r, index_from (p ++ r) (length p) = Ok r.
Proof.
  intros. unfold index_from. rewrite app_length.
  destruct (Nat.ltb_spec (length p + length r) (length p)); [lia|]. now rewrite skipn_app_exact.
Qed.

Lemma tag_app : forall e m r, tag e m (e ++ r) = Ok (r, tt).
Proof. intros. unfold tag. rewrite starts_with_app, unchecked_from_app. reflexivity. Qed.

Lemma tag_inv : forall e m i,
  (exists r, i = e ++ r /\ tag e m i = Ok (r, tt)) \/
  (starts_with i e = false /\ tag e m i = Err (Explicit m)).
Proof.
  intros. destruct (starts_with i e) eqn:H.
  - left. apply starts_with_spec in H as [r ->]. exists r. split; auto. apply tag_app.
  - right. split; auto. unfold tag. now rewrite H.
Qed.

Lemma post_tag : forall K e m i, post K (tag e m i) i (fun c _ => c = e).
Proof.
  intros. destruct (tag_inv e m i) as [(r & -> & ->)|(_ & ->)]; cbn; eauto.
Qed.

Lemma post_prefixed : forall A K (p : parser A) x i P,
  (forall j, post K (p j) j P) ->
  post K (prefixed p x i) i (fun c a => exists c', c = x ++ c' /\ P c' a).
Proof.
  intros A K p x i P Hp. unfold prefixed. destruct (starts_with i x) eqn:H; [|exact I].
  apply starts_with_spec in H as [r ->]. rewrite unchecked_from_app. cbn [bind].
  specialize (Hp r). revert Hp; destruct (p r) as [[r' a]|e|k]; cbn; auto.
  intros (c & -> & HP). exists (x ++ c). rewrite app_assoc. eauto.
Qed.

(* span *)
Lemma span_spec : forall f i a b, span f i = (a, b) ->
  i = a ++ b /\ Forall (fun c => f c = true) a /\
  (b = [] \/ exists c b', b = c :: b' /\ f c = false).
Proof.
  intros f. induction i as [|c i IH]; intros a b H; cbn in H.
  - inversion H; subst. repeat split; auto.
  - destruct (f c) eqn:Hc.
    + destruct (span f i) as [a' b'] eqn:Hs. inversion H; subst.
      destruct (IH a' b eq_refl) as (-> & Ha & Hb). repeat split; auto.
    + inversion H; subst. repeat split; eauto.
Qed.

(* ASCII *)
Definition ascii_byte (c : byte) : Prop := (c < 128)%N.
Definition ascii (l : bytes) : Prop := Forall ascii_byte l.

Lemma ascii_utf8 : forall l, ascii l -> utf8_valid l = true.
Proof.
  intros l H. induction H as [|c l Hc Hl IH]; cbn [utf8_valid]; auto.
  unfold ascii_byte in Hc. destruct (N.ltb_spec c 128); [assumption|lia].
Qed.

Lemma str_unchecked_ascii : forall l, ascii l -> str_unchecked l = Ok l.
Proof. intros. unfold str_unchecked. now rewrite ascii_utf8. Qed.

Lemma ascii_app : forall a b, ascii a -> ascii b -> ascii (a ++ b).
Proof. intros. apply Forall_app. auto. Qed.

Lemma post_take_while : forall K f i,
  (forall c, f c = true -> ascii_byte c) ->
  post K (take_while f i) i (fun c v => v = c /\ Forall (fun c => f c = true) c).
Proof.
  intros K f i Hf. unfold take_while. destruct (span f i) as [a b] eqn:Hs.
  apply span_spec in Hs as (-> & Ha & _).
  rewrite str_unchecked_ascii by (eapply Forall_impl; [|exact Ha]; exact Hf). exists a. auto.
Qed.

Lemma post_take_while1 : forall K f i,
  (forall c, f c = true -> ascii_byte c) ->
  post K (take_while1 f i) i (fun c v => v = c /\ c <> [] /\ Forall (fun c => f c = true) c).
Proof.
  intros K f i Hf. unfold take_while1. destruct i as [|x i]; [exact I|].
  destruct (f x) eqn:Hx; cbn [negb]; [|exact I].
  destruct (span f (x :: i)) as [a b] eqn:Hs.
  assert (a <> []). { cbn in Hs. rewrite Hx in Hs. destruct (span f i). inversion Hs. discriminate. }
  apply span_spec in Hs as (-> & Ha & _).
  rewrite str_unchecked_ascii by (eapply Forall_impl; [|exact Ha]; exact Hf). exists a. auto.
Qed.

Lemma post_digit : forall K i, post K (digit i) i
  (fun c v => exists x, c = [x] /\ is_digit x = true /\ v = (x - 48)%N).
Proof.
  intros. unfold digit. destruct i as [|x i]; [exact I|].
  destruct (is_digit x) eqn:Hx; [|exact I]. exists [x]. split; eauto.
Qed.

(* C68: the size of a tree of parts without encoded multiparts. *)
From Coq Require Import Lia.
From Verif Require Import Base Utf8 Charset Time Address MimeFields Fields Message Entity Email Combinators.
From Verif Require Import Rfc5322 Rfc2047 CodecSpec RfcFields EmailSpec MultipartSpec EntitySpec SizeSpec Envs Post EntityProofs SizeFacts SizeMail CutSpec CutFacts GrowSpec GrowFacts UnencodedSpec.
Local Open Scope nat_scope.
Local Ltac lia := unfold bytes, byte in *; Lia.lia.
Local Ltac nia := unfold bytes, byte in *; Lia.nia.

Local Notation size := (sums (@length byte)).
Lemma size_app : forall a b, size (a ++ b) = size a + size b.
Proof. intros. unfold sums. now rewrite map_app, list_sum_app. Qed.
Lemma sections_size : forall b i ps rest, sections b i ps rest -> size ps + 4 * length ps + length rest <= length i.
Proof.
  intros b i ps rest H. induction H as [r ps rest _ IH|i p r ps rest _ [-> _] _ IH|i _ _]; rewrite ?sums_cons; cbn [length]; unfold delimiter, dash_boundary; rewrite ?app_length; cbn [length bs CRLF app]; [|lia|change (size []) with 0; lia].
  change (length (bs "--")) with 2. lia.
Qed.
Lemma parts_text_size : forall b i ps, cut_parts b i ps -> size ps + 4 * length ps + 4 <= length i.
Proof.
  intros b i ps [ss rest last epi pre S [-> _] X]. apply sections_size in S. pose proof (f_equal size X) as X1. pose proof (f_equal (@length bytes) X) as X2.
  rewrite size_app, !sums_cons in X1. rewrite app_length in X2. cbn [length] in X2. change (size []) with 0 in X1. unfold closing_delimiter in S. rewrite !app_length in S. change (length CRLF) with 2 in S. unfold dash_boundary in S. rewrite app_length in S. change (length (bs "--")) with 2 in S. lia.
Qed.

Lemma leaf_true : forall r, is_leaf r = true -> e_mime_type r <> CMultipart.
Proof. intros r H. unfold is_leaf in H. destruct (e_mime_type r); discriminate. Qed.
Lemma leaf_false : forall r, is_leaf r = false -> e_mime_type r = CMultipart.
Proof. intros r H. unfold is_leaf in H. destruct (e_mime_type r); (reflexivity || discriminate). Qed.
Section tree.
Context (E : env) (HE : env_ok E).
Lemma part_value_size : forall p e, raw_entity E p = Ok e -> length (e_value e) <= 3 * length p.
Proof.
  intros p e H. destruct (part_keyed E p e HE H) as (hs & t & (c & c' & -> & _ & R) & _ & O). pose proof (transfer_len _ _ _ (of_part_value _ _ _ O)) as V. rewrite app_length. destruct R as [[-> ->]| ->]; rewrite ?app_length; lia.
Qed.
(* not only by a missing header, but by every encoding that changes nothing *)
Lemma identity_kept : forall p hs t e, part_text E p hs t -> part_of hs t e -> ~ In (encoding_of (last_some of_encoding hs)) [QuotedPrintableEnc; Base64Enc] -> exists h, p = h ++ e_value e.
Proof.
  intros p hs t e (c & c' & -> & _ & R) O N. pose proof (of_part_value _ _ _ O) as V. assert (X : e_value e = t) by (inversion V; subst; try reflexivity; exfalso; apply N; cbn; auto). rewrite X.
  destruct R as [[-> ->]| ->]; [exists c; reflexivity|exists (c ++ CRLF); now rewrite <- app_assoc].
Qed.
Lemma leaf_children : forall r, e_mime_type r <> CMultipart -> children E r = [].
Proof. intros r H. unfold children, entity. destruct (e_mime_type r); try easy. destruct (map_get _ _); [|reflexivity]. destruct (find_charset _); [|reflexivity]. destruct (decode_charset _ _ _); reflexivity. Qed.
Lemma leaf_below : forall n r, e_mime_type r <> CMultipart -> below E n r = [].
Proof. intros [|n] r H; [reflexivity|]. cbn [below]. now rewrite leaf_children. Qed.

(* the parts of a part with the texts they are read from *)
Lemma children_parts : forall r, children E r <> [] -> exists b ps, map_get (e_parameters r) (bs "boundary") = Some b /\ cut_parts b (e_value r) ps /\ Forall2 (fun p e => raw_entity E p = Ok e) ps (children E r).
Proof.
  intros r H. assert (M : e_mime_type r = CMultipart) by (apply leaf_false; destruct (is_leaf r) eqn:M; [exfalso; apply H, leaf_children; now apply leaf_true|reflexivity]).
  unfold children in *. destruct (entity E r) as [x|e|k] eqn:X; [|easy..]. destruct x as [s es| |]; [|easy..]. apply (entity_multipart_exact E r _ M) in X as (b & ps & es' & B & C & F & X). injection X as _ <-. eauto.
Qed.
Lemma unencoded_child : forall r x, unencoded E r -> In x (children E r) -> unencoded E x.
Proof.
  intros r x H Hx n y Hy. apply (H (S n)). right. cbn [below]. apply in_concat. exists (x :: below E n x). split; [|exact Hy]. apply in_map_iff. now exists x.
Qed.
(* one step: what holds of the children adds up *)
Lemma step : forall (f : raw_entity_t -> nat) (g : nat -> nat) r, unencoded E r -> (forall x y, g x + g y <= g (x + y)) ->
  (forall p e, raw_entity E p = Ok e -> In e (children E r) -> kept p e -> f e <= g (length p)) ->
  children E r = [] \/ exists s c, list_sum (map f (children E r)) <= g s /\ c = length (children E r) /\ s + 4 * c + 4 <= length (e_value r).
Proof.
  intros f g r U Hg Hf. destruct (children E r) as [|e0 l0] eqn:N; [now left|right]. destruct (children_parts r) as (b & ps & B & C & F); [rewrite N; discriminate|]. pose proof (parts_text_size _ _ _ C) as L. rewrite <- N in *. exists (size ps), (length (children E r)).
  assert (K : forall p e, In p ps -> raw_entity E p = Ok e -> kept p e) by (intros p e Hp He; apply (U 0 r (or_introl eq_refl) b ps p e B C Hp He)). clear U B C N.
  assert (X : list_sum (map f (children E r)) <= g (size ps) /\ length ps = length (children E r)).
  { clear L. induction F as [|p e ps es He F IH]; [cbn; lia|]. destruct IH as [I1 I2]; [intros; apply Hf; auto; now right|intros; apply K; auto; now right|]. cbn [map length]. rewrite sums_cons. change (list_sum (f e :: map f es)) with (f e + list_sum (map f es)).
    pose proof (Hf p e He (or_introl eq_refl) (K p e (or_introl eq_refl) He)). pose proof (Hg (length p) (size ps)). lia. }
  destruct X as [X1 X2]. split; [exact X1|]. split; [reflexivity|]. lia.
Qed.
Lemma sum_concat : forall (f : raw_entity_t -> nat) (g : raw_entity_t -> list raw_entity_t) l, list_sum (map f (concat (map g l))) = list_sum (map (fun x => list_sum (map f (g x))) l).
Proof. intros f g l. induction l as [|x l IH]; [reflexivity|]. cbn [map concat]. rewrite map_app, list_sum_app, IH. reflexivity. Qed.

Theorem below_count : forall n r, unencoded E r -> 4 * length (below E n r) <= length (e_value r).
Proof.
  induction n as [|n IH]; intros r U; [cbn; lia|]. 
  destruct (step (fun x => 4 * length (below E n x)) (fun s => s) r U) as [X|(s & c & X1 & X2 & X3)]; [lia| |cbn [below]; rewrite X; cbn; lia|].
  - intros p e He Hc K. destruct (is_leaf e) eqn:T.
    + rewrite leaf_below; [cbn; lia|]. now apply leaf_true.
    + pose proof (leaf_false _ T) as M. destruct (K M) as [h ->]. specialize (IH e (unencoded_child _ _ U Hc)). rewrite app_length. lia.
  - cbn [below]. assert (Y : 4 * length (concat (map (fun x => x :: below E n x) (children E r))) = 4 * length (children E r) + list_sum (map (fun x => 4 * length (below E n x)) (children E r))).
    { clear. induction (children E r) as [|x l IL]; [reflexivity|]. cbn [map concat]. rewrite app_length. cbn [length]. change (list_sum (?a :: ?l)) with (a + list_sum l). lia. }
    rewrite Y. lia.
Qed.
Definition leaf_size (r : raw_entity_t) : nat := if is_leaf r then length (e_value r) else 0.
Lemma leaves_sum : forall l, value_bytes (filter is_leaf l) = list_sum (map leaf_size l).
Proof. intros l. induction l as [|x l IL]; [reflexivity|]. cbn [filter map]. change (list_sum (?a :: ?l)) with (a + list_sum l). rewrite <- IL. unfold leaf_size. destruct (is_leaf x); reflexivity. Qed.
Theorem below_leaves : forall n r, unencoded E r -> value_bytes (filter is_leaf (below E n r)) <= 3 * length (e_value r).
Proof.
  intros n r U. rewrite leaves_sum. revert r U. induction n as [|n IH]; intros r U; [cbn; lia|]. cbn [below]. rewrite sum_concat. 
  destruct (step (fun x => list_sum (map leaf_size (x :: below E n x))) (fun s => 3 * s) r U) as [X|(s & c & X1 & X2 & X3)]; [lia| |rewrite X; cbn; lia|lia].
  intros p e He Hc K. cbn [map]. change (list_sum (?a :: ?l)) with (a + list_sum l). unfold leaf_size at 1. destruct (is_leaf e) eqn:T.
  - rewrite leaf_below; [|now apply leaf_true]. pose proof (part_value_size p e He). cbn. lia.
  - pose proof (leaf_false _ T) as M. destruct (K M) as [h ->]. specialize (IH e (unencoded_child _ _ U Hc)). rewrite app_length. lia.
Qed.
Theorem below_bytes : forall n r, unencoded E r -> 8 * value_bytes (below E n r) <= 3 * (length (e_value r) * length (e_value r)).
Proof.
  unfold value_bytes. induction n as [|n IH]; intros r U; [cbn; lia|]. cbn [below]. rewrite sum_concat.
  destruct (step (fun x => list_sum (map (fun y => length (e_value y)) (x :: below E n x))) (fun s => 3 * s + 3 * (s * s) / 8) r U) as [X|(s & c & X1 & X2 & X3)].
  - intros x y. assert (3 * (x * x) / 8 + 3 * (y * y) / 8 <= 3 * ((x + y) * (x + y)) / 8); [|lia]. apply Nat.div_le_lower_bound; [lia|]. pose proof (Nat.mul_div_le (3 * (x * x)) 8 ltac:(lia)). pose proof (Nat.mul_div_le (3 * (y * y)) 8 ltac:(lia)). nia.
  - intros p e He Hc K. cbn [map]. change (list_sum (?a :: ?l)) with (a + list_sum l). destruct (is_leaf e) eqn:T.
    + rewrite leaf_below; [|now apply leaf_true]. pose proof (part_value_size p e He). cbn [map list_sum fold_right]. lia.
    + pose proof (leaf_false _ T) as M. destruct (K M) as [h ->]. specialize (IH e (unencoded_child _ _ U Hc)). rewrite app_length.
      assert (Q : list_sum (map (fun y => length (e_value y)) (below E n e)) <= 3 * ((length h + length (e_value e)) * (length h + length (e_value e))) / 8); [|lia]. apply Nat.div_le_lower_bound; [lia|]. nia.
  - rewrite X. cbn. lia.
  - assert (C1 : 1 <= c \/ c = 0) by lia. destruct C1 as [C1|C1].
    + pose proof (Nat.mul_div_le (3 * (s * s)) 8 ltac:(lia)). nia.
    + assert (Z : children E r = []) by (destruct (children E r); [reflexivity|cbn in X2; lia]). rewrite Z. cbn. lia.
Qed.
(* how to show it of a tree *)
Lemma unencoded_leaf : forall r, map_get (e_parameters r) (bs "boundary") = None -> unencoded E r.
Proof.
  intros r H n x Hx b ps p e B. assert (X : x = r); [|subst x; congruence]. destruct Hx as [->|Hx]; [reflexivity|]. exfalso. destruct n; [destruct Hx|]. cbn [below] in Hx. destruct (children E r) eqn:C; [destruct Hx|].
  destruct (children_parts r) as (b' & _ & B' & _); [rewrite C; discriminate|]. congruence.
Qed.
Lemma unencoded_node : forall r b ps, map_get (e_parameters r) (bs "boundary") = Some b -> cut_parts b (e_value r) ps -> (forall p e, In p ps -> raw_entity E p = Ok e -> kept p e /\ unencoded E e) -> unencoded E r.
Proof.
  intros r b ps B C K n x Hx b' ps' p e B' C' Hp He. destruct Hx as [<-|Hx].
  - rewrite B in B'. injection B' as <-. rewrite (cut_parts_fun _ _ _ _ C' C) in Hp. exact (proj1 (K p e Hp He)).
  - destruct n as [|n]; [destruct Hx|]. cbn [below] in Hx. apply in_concat in Hx as (l & Hl & Hx). apply in_map_iff in Hl as (y & <- & Hy).
    destruct (children_parts r) as (b2 & ps2 & B2 & C2 & F); [intros N; rewrite N in Hy; destruct Hy|]. rewrite B in B2. injection B2 as <-. rewrite (cut_parts_fun _ _ _ _ C2 C) in F.
    assert (Q : exists q, In q ps /\ raw_entity E q = Ok y) by (clear - F Hy; induction F as [|a b0 l l' H F IH]; [destruct Hy|destruct Hy as [<-|Hy]; [exists a; split; [now left|exact H]|destruct (IH Hy) as (q & Q1 & Q2); exists q; split; [now right|exact Q2]]]).
    destruct Q as (q & Q1 & Q2). exact (proj2 (K q y Q1 Q2) n x Hx b' ps' p e B' C' Hp He).
Qed.
(* a mail *)
Theorem unencoded_mail : forall D e r, f_mime E = true -> parse E D = Ok e -> mime_entity e = Some r -> kept D r -> unencoded E r -> forall n,
  4 * length (below E n r) <= length D /\ value_bytes (filter is_leaf (r :: below E n r)) <= 3 * length D /\ 8 * value_bytes (below E n r) <= 3 * (length D * length D).
Proof.
  intros D e r HM H Hr K U n. destruct (mail_levels E HE D e r HM H Hr 0) as (V & _ & _). change (3 ^ 1) with 3 in V. unfold level, value_bytes in V. cbn [map list_sum fold_right] in V.
  rewrite leaves_sum. cbn [map]. change (list_sum (?a :: ?l)) with (a + list_sum l). rewrite <- leaves_sum. unfold leaf_size. destruct (is_leaf r) eqn:T.
  - rewrite leaf_below; [|now apply leaf_true]. cbn. lia.
  - pose proof (leaf_false _ T) as M. destruct (K M) as [h ->].
    pose proof (below_count n r U). pose proof (below_leaves n r U). pose proof (below_bytes n r U). rewrite app_length. split; [lia|]. split; [lia|]. nia.
Qed.
(* below holds the parts of all levels *)
Theorem below_levels : forall n r x, In x (below E n r) <-> exists k, k < n /\ In x (level E (S k) r).
Proof.
  induction n as [|n IH]; intros r x; [split; [intros []|intros (k & L & _); lia]|]. cbn [below]. rewrite in_concat. split.
  - intros (l & Hl & Hx). apply in_map_iff in Hl as (y & <- & Hy). destruct Hx as [<-|Hx].
    + exists 0. split; [lia|]. cbn [level]. apply in_concat. exists [y]. split; [|now left]. apply in_map_iff. now exists y.
    + apply IH in Hx as (k & L & Hx). exists (S k). split; [lia|]. change (level E (S (S k)) r) with (concat (map (level E (S k)) (children E r))). apply in_concat. exists (level E (S k) y). split; [|exact Hx]. now apply in_map.
  - intros (k & L & Hx). cbn [level] in Hx. apply in_concat in Hx as (l & Hl & Hx). apply in_map_iff in Hl as (y & <- & Hy). exists (y :: below E n y). split; [apply in_map_iff; now exists y|].
    destruct k as [|k]; [destruct Hx as [<-|[]]; now left|]. right. apply IH. exists k. split; [lia|exact Hx].
Qed.
End tree.

(* C43. *)
From Coq Require Import Lia ZifyBool ZifyNat ZifyN.
From Verif Require Import Base Utf8 Utf8Facts Combinators StringCow StringSpec.
Local Open Scope N_scope.

Lemma at_cons : forall m p b v, at_address m p (b :: v) <-> m p = Some b /\ at_address m (p + 1) v.
Proof.
  intros m p b v. split.
  - intros H. split; [rewrite <- (H 0%nat b eq_refl); f_equal; lia|]. intros k x Hk. rewrite <- (H (S k) x Hk). f_equal. lia.
  - intros [H1 H2] [|k] x Hk; cbn in Hk.
    + injection Hk as <-. rewrite <- H1. f_equal. lia.
    + rewrite <- (H2 k x Hk). f_equal. lia.
Qed.
Lemma at_nil : forall m p, at_address m p [].
Proof. intros m p [|k] b H; discriminate. Qed.
Lemma at_app : forall m u p v, at_address m p u -> at_address m (p + N.of_nat (length u)) v -> at_address m p (u ++ v).
Proof.
  intros m. induction u as [|b u IH]; intros p v Hu Hv; cbn [app].
  - cbn in Hv. replace p with (p + 0) by lia. exact Hv.
  - apply at_cons in Hu. apply at_cons. split; [easy|]. apply IH; [easy|]. replace (p + 1 + N.of_nat (length u)) with (p + N.of_nat (length (b :: u))) by (cbn [length]; lia). exact Hv.
Qed.
Lemma read_at : forall m v p, at_address m p v -> read m p (length v) = Ok v.
Proof.
  intros m. induction v as [|b v IH]; intros p H; cbn [length read]; [reflexivity|]. apply at_cons in H as [H1 H2]. rewrite H1. rewrite (IH _ H2). reflexivity.
Qed.
Lemma text_contents : forall m c v, is_text m c v -> contents m c = Ok v.
Proof. intros m [p n|s] v [H1 H2]; cbn; [|now subst]. destruct H2 as [<- H2]. now apply read_at. Qed.

Lemma add_string_text : forall m s1 s2 v1 v2, is_text m s1 v1 -> is_text m s2 v2 -> exists s, add_string m s1 s2 = Ok s /\ is_text m s (v1 ++ v2).
Proof.
  intros m s1 s2 v1 v2 H1 H2. pose proof (text_contents _ _ _ H1) as C1. pose proof (text_contents _ _ _ H2) as C2.
  assert (U : utf8_valid (v1 ++ v2) = true) by (apply utf8_app; [apply H1|apply H2]).
  destruct s1 as [p1 n1|o1].
  - cbn [add_string]. assert (F : exists s, (let* a := contents m (Borrowed p1 n1) in let* b := contents m s2 in Ok (Owned (a ++ b))) = Ok s /\ is_text m s (v1 ++ v2)).
    { rewrite C1, C2. cbn [bind]. exists (Owned (v1 ++ v2)). split; [reflexivity|]. split; auto. }
    destruct s2 as [p2 n2|o2]; [|exact F]. destruct H1 as [V1 [L1 A1]], H2 as [V2 [L2 A2]]. destruct (Nat.eqb_spec n2 0) as [Z2|Z2].
    { exists (Borrowed p1 n1). split; [reflexivity|]. destruct v2; [|cbn in L2; lia]. rewrite app_nil_r in *. split; auto. }
    destruct (Nat.eqb_spec n1 0) as [Z1|Z1].
    { exists (Borrowed p2 n2). split; [reflexivity|]. destruct v1; [|cbn in L1; lia]. split; auto. }
    destruct (p1 + N.of_nat n1 =? p2) eqn:E; [|exact F]. apply N.eqb_eq in E. subst p2.
    assert (A : at_address m p1 (v1 ++ v2)). { apply at_app; [exact A1|]. now rewrite L1. }
    assert (L : length (v1 ++ v2) = (n1 + n2)%nat) by (rewrite app_length; lia).
    exists (Borrowed p1 (n1 + n2)). split; [|split; auto]. unfold from_slice. rewrite <- L. rewrite (read_at m _ p1 A). cbn [bind]. unfold str_unchecked. rewrite U. reflexivity.
  - cbn [add_string]. rewrite C2. cbn [bind]. exists (Owned (o1 ++ v2)). split; [reflexivity|]. split; auto. cbn. destruct H1 as [_ ->]. reflexivity.
Qed.
Lemma add_str_same : forall m s1 p2 n2, add_str m s1 p2 n2 = add_string m s1 (Borrowed p2 n2).
Proof. intros m [p n|o] p2 n2; reflexivity. Qed.
Lemma add_str_text : forall m s1 p2 n2 v1 v2, is_text m s1 v1 -> is_text m (Borrowed p2 n2) v2 -> exists s, add_str m s1 p2 n2 = Ok s /\ is_text m s (v1 ++ v2).
Proof. intros. rewrite add_str_same. now apply add_string_text. Qed.

Lemma from_slice_is : forall m p n s, from_slice m p n = Ok s -> s = Borrowed p n.
Proof. intros m p n s H. unfold from_slice in H. destruct (read m p n) as [b| |]; try discriminate. cbn [bind] in H. unfold str_unchecked in H. destruct (utf8_valid b); try discriminate. now injection H as <-. Qed.
Lemma add_string_borrowed : forall m s1 s2 p n, add_string m s1 s2 = Ok (Borrowed p n) ->
  exists p1 n1 p2 n2, s1 = Borrowed p1 n1 /\ s2 = Borrowed p2 n2 /\ n = (n1 + n2)%nat /\
    (n2 = 0%nat /\ p = p1 \/ n1 = 0%nat /\ p = p2 \/ p = p1 /\ p2 = p1 + N.of_nat n1).
Proof.
  intros m s1 s2 p n H. destruct s1 as [p1 n1|o1]; [|cbn in H; destruct (contents m s2); discriminate].
  assert (F : forall c, (let* a := c in let* b := contents m s2 in Ok (Owned (a ++ b))) <> Ok (Borrowed p n)).
  { intros [a| |]; cbn; try discriminate. destruct (contents m s2); discriminate. }
  cbn [add_string] in H. destruct s2 as [p2 n2|o2]; [|now apply F in H]. exists p1, n1, p2, n2. split; [reflexivity|]. split; [reflexivity|].
  destruct (Nat.eqb_spec n2 0) as [Z2|Z2]; [injection H as <- <-; split; [lia|]; auto|].
  destruct (Nat.eqb_spec n1 0) as [Z1|Z1]; [injection H as <- <-; split; [lia|]; auto|].
  destruct (p1 + N.of_nat n1 =? p2) eqn:E; [|now apply F in H]. apply from_slice_is in H. injection H as -> ->. split; [reflexivity|]. right. right. split; [reflexivity|]. lia.
Qed.
Lemma add_string_in : forall m lo hi s1 s2 s, slice_in lo hi s1 -> slice_in lo hi s2 -> add_string m s1 s2 = Ok s -> slice_in lo hi s.
Proof.
  intros m lo hi s1 s2 [p n|o] H1 H2 H; [|exact I]. apply add_string_borrowed in H as (p1 & n1 & p2 & n2 & -> & -> & -> & H). cbn in *. lia.
Qed.
Lemma join_text : forall m l acc v vs, is_text m acc v -> Forall2 (is_text m) l vs -> exists s, join m acc l = Ok s /\ is_text m s (v ++ concat vs).
Proof.
  intros m l. induction l as [|c l IH]; intros acc v vs Ha Hl; inversion Hl; subst; cbn [join concat].
  - exists acc. split; [reflexivity|]. now rewrite app_nil_r.
  - destruct (add_string_text m acc c v y Ha H1) as (s & -> & Hs). cbn [bind]. rewrite app_assoc. now apply IH.
Qed.
(* slices that follow each other in memory are joined without copying *)
Lemma join_consecutive_from : forall m p0 l q k p n v, (n = 0%nat \/ q = p + N.of_nat n) -> p0 = (if Nat.eqb n 0 then q else p) -> consecutive q l k -> at_address m p0 v -> utf8_valid v = true ->
  length v = (n + k)%nat ->
  Forall (fun c => exists x, is_text m c x) l -> (n = 0%nat \/ exists x, is_text m (Borrowed p n) x) ->
  exists p', join m (Borrowed p n) l = Ok (Borrowed p' (n + k)) /\ ((n + k)%nat = 0%nat \/ p' = p0).
Proof.
  intros m p0 l. induction l as [|c l IH]; intros q k p n v Hq H0 Hc Ha Hv Hl Ht Hn; inversion Hc; subst; cbn [join].
  - exists p. split; [f_equal; f_equal; lia|]. destruct (Nat.eqb_spec n 0); [left; lia|right; reflexivity].
  - inversion Ht as [|? ? [x Hx] Ht']; subst.
    assert (S : exists p1, add_string m (Borrowed p n) (Borrowed q n0) = Ok (Borrowed p1 (n + n0)) /\ ((n + n0)%nat = 0%nat \/ q + N.of_nat n0 = p1 + N.of_nat (n + n0)) /\
                (if Nat.eqb n 0 then q else p) = (if Nat.eqb (n + n0) 0 then q + N.of_nat n0 else p1) /\ ((n + n0)%nat = 0%nat \/ exists x, is_text m (Borrowed p1 (n + n0)) x)).
    { cbn [add_string]. destruct (Nat.eqb_spec n0 0) as [->|Z0].
      - exists p. rewrite Nat.add_0_r. split; [reflexivity|]. split; [lia|]. split; [destruct (Nat.eqb n 0); lia|exact Hn].
      - destruct (Nat.eqb_spec n 0) as [Z|Z].
        + exists q. rewrite Z. split; [reflexivity|]. split; [right; reflexivity|]. split; [destruct (Nat.eqb_spec (0 + n0) 0); [lia|reflexivity]|]. right. exists x. exact Hx.
        + destruct Hq as [Hq|Hq]; [lia|]. subst q. rewrite N.eqb_refl. destruct Hn as [Hn|[y Hy]]; [lia|].
          destruct Hy as [Y1 [Y2 Y3]], Hx as [X1 [X2 X3]].
          assert (A : at_address m p (y ++ x)) by (apply at_app; [exact Y3|now rewrite Y2]). assert (L : length (y ++ x) = (n + n0)%nat) by (rewrite app_length; lia).
          exists p. split; [|split; [right; lia|split; [destruct (Nat.eqb_spec (n + n0) 0); [lia|reflexivity]|]]].
          * unfold from_slice. rewrite <- L, (read_at m _ p A). cbn [bind]. unfold str_unchecked. rewrite utf8_app; auto.
          * right. exists (y ++ x). split; [apply utf8_app; auto|]. split; auto. }
    destruct S as (p1 & -> & S1 & S2 & S3). cbn [bind]. rewrite S2 in *. rewrite Nat.add_assoc. apply (IH (q + N.of_nat n0) _ p1 (n + n0)%nat v); auto. lia.
Qed.
Lemma join_consecutive : forall m somewhere p l k, consecutive p l k -> Forall (fun c => exists x, is_text m c x) l ->
  exists p', join m (empty_string somewhere) l = Ok (Borrowed p' k) /\ (k = 0%nat \/ p' = p).
Proof.
  intros m q p l k Hc Ht.
  assert (R : exists v, at_address m p v /\ utf8_valid v = true /\ length v = k).
  { revert p k Hc. induction l as [|c l IH]; intros p k Hc; inversion Hc; subst.
    - exists []. split; [apply at_nil|]. split; reflexivity.
    - inversion Ht as [|? ? [x Hx] Ht']; subst. destruct Hx as [X1 [X2 X3]]. match goal with H : consecutive _ l _ |- _ => destruct (IH Ht' _ _ H) as (v & A & U & L) end. exists (x ++ v). split; [apply at_app; [exact X3|first [exact A|rewrite X2; exact A]]|]. split; [apply utf8_app; auto|]. rewrite app_length. lia. }
  destruct R as (v & A & U & L). destruct (join_consecutive_from m p l p k q 0%nat v) as (p' & H1 & H2); auto. exists p'. split; auto.
Qed.
(* the check compares addresses only *)
Lemma across : exists m lo mid hi s1 s2 s, lo < mid /\ mid < hi /\ is_text m s1 (bs "a") /\ is_text m s2 (bs "b") /\ slice_in lo mid s1 /\ slice_in mid hi s2 /\
  add_string m s1 s2 = Ok s /\ ~ slice_in lo mid s /\ ~ slice_in mid hi s.
Proof.
  exists (fun a => if a =? 10 then Some 97 else if a =? 11 then Some 98 else None), 10, 11, 12, (Borrowed 10 1), (Borrowed 11 1), (Borrowed 10 2).
  split; [lia|]. split; [lia|]. split; [split; [reflexivity|]; split; [reflexivity|]; intros [|[|k]] b H; cbn in H; try discriminate; injection H as <-; reflexivity|].
  split; [split; [reflexivity|]; split; [reflexivity|]; intros [|[|k]] b H; cbn in H; try discriminate; injection H as <-; reflexivity|].
  split; [right; cbn; lia|]. split; [right; cbn; lia|]. split; [reflexivity|]. split; cbn; lia.
Qed.

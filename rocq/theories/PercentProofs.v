(* Charsets and percent decoding. *)
From Coq Require Import ZArith Lia ZifyBool ZifyNat ZifyN.
From Verif Require Import Base Utf8 CharSets Combinators QuotedPrintable Charset Percent CodecSpec CodecArith Base64Proofs QPProofs.
Ltac Zify.zify_post_hook ::= Z.to_euclidean_division_equations.
Local Open Scope N_scope.

Lemma bytes_eqb_eq : forall a b, bytes_eqb a b = true <-> a = b.
Proof.
  induction a as [|x a IH]; intros [|y b]; cbn; split; try discriminate; auto.
  - intros H. apply andb_true_iff in H as [H1 H2]. apply N.eqb_eq in H1. apply IH in H2. now subst.
  - intros H. inversion H; subst. rewrite N.eqb_refl. now apply IH.
Qed.
Lemma bytes_eqb_refl : forall a, bytes_eqb a a = true.
Proof. intros. now apply bytes_eqb_eq. Qed.
Lemma bytes_eqb_neq : forall a b, bytes_eqb a b = false <-> a <> b.
Proof.
  intros a b. pose proof (bytes_eqb_eq a b). destruct (bytes_eqb a b); split; intros; try discriminate; intuition congruence.
Qed.

(* the charset tables decode what [charset_decodes] says *)
Definition charset_value (E : env) (name raw : bytes) : option bytes :=
  match find_charset name with
  | Some k => match decode_charset E k raw with Ok v => Some v | _ => None end
  | None => None
  end.
Lemma charset_spec : forall E name raw v,
  charset_value E name raw = Some v <-> charset_decodes (textcode E) name raw v.
Proof.
  intros E name raw v. unfold charset_value. split.
  - unfold find_charset, charset_table. cbn [map_get].
    repeat match goal with |- context [bytes_eqb name ?x] =>
      let Hn := fresh in destruct (bytes_eqb name x) eqn:Hn; [apply bytes_eqb_eq in Hn; subst name;
        cbn [decode_charset]; try unfold str_checked;
        try (destruct (utf8_valid raw) eqn:?; [|intros ?; discriminate]);
        let H := fresh in intros H; inversion H; subst; solve [constructor; auto]|clear Hn] end.
    idtac. discriminate.
  - intros H. inversion H; subst; try reflexivity; cbn; unfold str_checked;
      match goal with H : utf8_valid _ = true |- _ => rewrite H end; reflexivity.
Qed.
Lemma decode_charset_no_crash : forall E k raw, (exists v, decode_charset E k raw = Ok v)
  \/ decode_charset E k raw = Err (Unknown "Invalid text encoding").
Proof. intros E [] raw; cbn; eauto. unfold str_checked. destruct (utf8_valid raw); eauto. Qed.

(* ---------------- right to left ---------------- *)
Lemma decode_percent_at : forall E pre r, decode_percent E (pre ++ 37 :: r) (length pre) = Ok (pre ++ rtl_step r).
Proof.
  intros. unfold decode_percent. rewrite !nth_error_at. destruct r as [|a [|b t]]; try reflexivity.
  cbn [nth_error]. rewrite !from_hex_spec. unfold rtl_step. destruct (hex_value a) as [x|] eqn:Ha; [|reflexivity].
  destruct (hex_value b) as [y|] eqn:Hb; [|reflexivity]. apply hex_value_lt in Ha, Hb.
  rewrite u8_mul_ok by lia. cbn [bind]. rewrite u8_add_ok by lia. cbn [bind]. rewrite unchecked_set_at. cbn [bind].
  replace (pre ++ x * 16 + y :: a :: b :: t) with ((pre ++ [x * 16 + y; a]) ++ b :: t) by (rewrite <- app_assoc; reflexivity).
  replace (length pre + 2)%nat with (length (pre ++ [x * 16 + y; a])) by (rewrite app_length; cbn; lia).
  rewrite vec_remove_at. cbn [bind].
  replace ((pre ++ [x * 16 + y; a]) ++ t) with ((pre ++ [x * 16 + y]) ++ a :: t) by (rewrite <- !app_assoc; reflexivity).
  replace (length pre + 1)%nat with (length (pre ++ [x * 16 + y])) by (rewrite app_length; cbn; lia).
  rewrite vec_remove_at. cbn [bind]. rewrite <- app_assoc. cbn [app]. now rewrite (N.mul_comm x 16).
Qed.

Lemma decode_percents_app : forall E ps qs i,
  decode_percents E i (ps ++ qs) = let* i := decode_percents E i ps in decode_percents E i qs.
Proof.
  intros E. induction ps as [|p ps IH]; intros; [reflexivity|]. cbn. destruct (decode_percent E i p); cbn; auto.
Qed.

Lemma decode_percents_spec : forall E l pre,
  decode_percents E (pre ++ l) (rev (percents_from (length pre) l)) = Ok (pre ++ rtl l).
Proof.
  intros E. induction l as [|c r IH]; intros pre; [reflexivity|]. cbn [percents_from rtl].
  specialize (IH (pre ++ [c])). rewrite app_length, Nat.add_comm in IH. cbn [length Nat.add] in IH.
  rewrite <- !app_assoc in IH. cbn [app] in IH.
  destruct (N.eqb_spec c 37) as [->|Hc].
  - cbn [rev]. rewrite decode_percents_app, IH. cbn [bind decode_percents]. rewrite decode_percent_at. reflexivity.
  - exact IH.
Qed.

Lemma hex_not_percent : forall a x, hex_value a = Some x -> (a =? 37) = false.
Proof. intros a x H. destruct (N.eqb_spec a 37) as [->|]; auto. vm_compute in H. discriminate. Qed.

Lemma rtl_ok : forall l, percents_ok l -> rtl l = percent_decoding l.
Proof.
  intros l. remember (length l) as n eqn:Hn. assert (Hle : (length l <= n)%nat) by lia. clear Hn. revert l Hle.
  induction n as [|n IH]; intros [|c r] Hle H; try reflexivity; [cbn in Hle; lia|].
  destruct H as [H1 H2]. cbn [rtl percent_decoding]. cbn [length] in Hle. destruct (N.eqb_spec c 37) as [->|Hc].
  - destruct (H1 eq_refl) as (a & b & t & x & y & -> & Ha & Hb). rewrite Ha, Hb. cbn [rtl].
    rewrite (hex_not_percent a x), (hex_not_percent b y) by auto. cbn [rtl_step]. rewrite Ha, Hb. f_equal.
    apply IH; [cbn in Hle; lia|]. cbn in H2. tauto.
  - f_equal. apply IH; auto. lia.
Qed.

Lemma decode_parameter_spec : forall E i name k, find_charset name = Some k ->
  decode_parameter E i name = decode_charset E k (rtl i).
Proof.
  intros E i name k H. unfold decode_parameter. rewrite H. pose proof (decode_percents_spec E i []) as D. cbn [app length] in D.
  rewrite D. reflexivity.
Qed.
Lemma decode_parameter_unknown : forall E i name, find_charset name = None -> decode_parameter E i name = str_unchecked i.
Proof. intros E i name H. unfold decode_parameter. now rewrite H. Qed.

Lemma percent_encodes_ok : forall v t, percent_encodes v t -> percents_ok t /\ percent_decoding t = v.
Proof.
  intros v t H. induction H as [|c v t Hc H [IH1 IH2]|c h l x y v t Hh Hl -> H [IH1 IH2]].
  - cbn. auto.
  - cbn [percents_ok percent_decoding]. replace (c =? 37) with false by lia. rewrite IH2. split; auto. split; auto. intros; lia.
  - pose proof (hex_not_percent _ _ Hh). pose proof (hex_not_percent _ _ Hl).
    cbn [percents_ok percent_decoding]. replace (37 =? 37) with true by reflexivity. rewrite Hh, Hl, IH2.
    split; [|reflexivity]. split; [intros _; exists h, l, t, x, y; auto|]. split; [intros; lia|]. split; [intros; lia|]. exact IH1.
Qed.
Lemma rtl_encodes : forall v t, percent_encodes v t -> rtl t = v.
Proof. intros v t H. apply percent_encodes_ok in H as [H1 H2]. rewrite rtl_ok; auto. Qed.

Lemma charset_names_find : forall name, In name charset_names -> exists k, find_charset name = Some k.
Proof.
  intros name H. unfold charset_names in H. cbn [In] in H.
  repeat (destruct H as [<-|H]; [eexists; vm_compute; reflexivity|]). destruct H.
Qed.
Lemma charset_names_unknown : forall name, ~ In name charset_names -> find_charset name = None.
Proof.
  intros name H. unfold find_charset, charset_table. cbn [map_get].
  repeat match goal with |- context [bytes_eqb name ?x] =>
    replace (bytes_eqb name x) with false; [|symmetry; apply bytes_eqb_neq; intros ->; apply H; unfold charset_names; cbn [In]; tauto] end.
  reflexivity.
Qed.
Lemma charset_value_ok : forall E name k raw v, find_charset name = Some k ->
  (decode_charset E k raw = Ok v <-> charset_decodes (textcode E) name raw v).
Proof.
  intros E name k raw v H. rewrite <- charset_spec. unfold charset_value. rewrite H.
  destruct (decode_charset E k raw); split; intros K; inversion K; reflexivity.
Qed.

Lemma percent_parameter : forall E i name, In name charset_names -> percents_ok i ->
  forall v, decode_parameter E i name = Ok v <-> charset_decodes (textcode E) name (percent_decoding i) v.
Proof.
  intros E i name Hn Hi v. destruct (charset_names_find name Hn) as [k Hk].
  rewrite (decode_parameter_spec E i name k Hk), rtl_ok by auto. now apply charset_value_ok.
Qed.
Lemma percent_round_trip : forall E v t, utf8_valid v = true -> percent_encodes v t ->
  decode_parameter E t (bs "utf-8") = Ok v.
Proof.
  intros E v t Hv H. rewrite (decode_parameter_spec E t _ Utf8OrAscii) by reflexivity.
  rewrite (rtl_encodes v t H). cbn. unfold str_checked. now rewrite Hv.
Qed.

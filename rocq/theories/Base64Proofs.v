(* base64: the in-place decoder refines the specification; encoder; round trip. *)
From Coq Require Import ZArith Lia ZifyBool ZifyNat ZifyN.
From Verif Require Import Base Base64 CodecSpec CodecArith.
Ltac Zify.zify_post_hook ::= Z.to_euclidean_division_equations.
Local Open Scope N_scope.

Lemma b64_value_get : forall c, get_value_encoded c = b64_value c.
Proof.
  intros c. destruct (N.lt_ge_cases c 256) as [H|H].
  - apply opt_eqb_eq.
    refine (below_spec 256 (fun c => opt_eqb (get_value_encoded c) (b64_value c)) _ c H).
    vm_compute. reflexivity.
  - unfold b64_value. rewrite (position_none 256); [|repeat constructor|auto].
    unfold get_value_encoded.
    repeat match goal with |- context [?a <=? ?b] => destruct (N.leb_spec a b) end;
    repeat match goal with |- context [?a =? ?b] => destruct (N.eqb_spec a b) end; try lia; reflexivity.
Qed.

Lemma get_value_lt : forall c v, get_value_encoded c = Some v -> v < 64.
Proof. intros c v H. rewrite b64_value_get in H. apply position_lt in H. exact H. Qed.

Lemma get_value_not_pad : forall c v, get_value_encoded c = Some v -> (c =? 61) = false.
Proof. intros c v H. destruct (N.eqb_spec c 61); auto. subst. discriminate. Qed.

(* where a scan stops *)
Fixpoint find_stop {R} (stop : N -> option R) (l : bytes) : option (bytes * N * R * bytes) :=
  match l with
  | [] => None
  | c :: r =>
    match stop c with
    | Some v => Some ([], c, v, r)
    | None => match find_stop stop r with
              | Some (s, x, v, r') => Some (c :: s, x, v, r')
              | None => None
              end
    end
  end.

Lemma find_stop_app : forall R (stop : N -> option R) l s x v r,
  find_stop stop l = Some (s, x, v, r) -> l = s ++ x :: r.
Proof.
  induction l as [|c l IH]; cbn; [discriminate|]. intros s x v r. destruct (stop c).
  - intros H. inversion H. reflexivity.
  - destruct (find_stop stop l) as [[[[s' x'] v'] r']|]; [|discriminate].
    intros H. inversion H. subst. cbn. f_equal. eauto.
Qed.

Lemma scan_spec : forall R (stop : N -> option R) todo n pre k i offset,
  (length todo < n)%nat -> (length pre = i + k)%nat ->
  scan n (pre ++ todo) k i offset stop =
    match find_stop stop todo with
    | Some (s, x, v, r) => Ok (i + length s, offset + length s, Some v)%nat
    | None => Ok (i + length todo, offset + length todo, None)%nat
    end.
Proof.
  intros R stop. induction todo as [|c todo IH]; intros n pre k i offset Hn Hpre;
    destruct n as [|n]; try (cbn in Hn; lia); cbn [scan]; rewrite <- Hpre, nth_error_at0; cbn [nth_error find_stop].
  - cbn. now rewrite !Nat.add_0_r.
  - destruct (stop c) as [v|] eqn:Hc.
    + cbn. now rewrite !Nat.add_0_r.
    + replace (pre ++ c :: todo) with ((pre ++ [c]) ++ todo) by (rewrite <- app_assoc; reflexivity).
      rewrite IH; [|cbn in Hn; lia|rewrite app_length; cbn; lia].
      destruct (find_stop stop todo) as [[[[s x] v] r]|]; cbn [length]; do 3 f_equal; lia.
Qed.

(* specification side *)
Lemma symbols_cons : forall c r, symbols (c :: r) =
  match get_value_encoded c with
  | Some v => V v :: symbols r
  | None => if c =? 61 then Pad :: symbols r else symbols r
  end.
Proof. intros. rewrite b64_value_get. reflexivity. Qed.

Lemma groups0 : forall l,
  b64_groups G0 (symbols l) =
    match find_stop get_value_encoded l with
    | Some (s, x, v, r) => b64_groups (G1 v) (symbols r)
    | None => Some []
    end.
Proof.
  induction l as [|c l IH]; [reflexivity|]. rewrite symbols_cons. cbn [find_stop].
  destruct (get_value_encoded c) as [v|]; [reflexivity|].
  destruct (c =? 61); cbn [b64_groups]; rewrite IH;
    destruct (find_stop get_value_encoded l) as [[[[s x] v] r]|]; reflexivity.
Qed.
Lemma groups1 : forall a l,
  b64_groups (G1 a) (symbols l) =
    match find_stop get_value_encoded l with
    | Some (s, x, v, r) => b64_groups (G2 a v) (symbols r)
    | None => None
    end.
Proof.
  induction l as [|c l IH]; [reflexivity|]. rewrite symbols_cons. cbn [find_stop].
  destruct (get_value_encoded c) as [v|]; [reflexivity|].
  destruct (c =? 61); cbn [b64_groups]; rewrite IH;
    destruct (find_stop get_value_encoded l) as [[[[s x] v] r]|]; reflexivity.
Qed.
Lemma groups2 : forall a b l,
  b64_groups (G2 a b) (symbols l) =
    match find_stop stop3 l with
    | Some (s, x, Some v, r) => b64_groups (G3 a b v) (symbols r)
    | Some (s, x, None, r) => b64_groups (G3Pad a b) (symbols r)
    | None => None
    end.
Proof.
  induction l as [|c l IH]; [reflexivity|]. rewrite symbols_cons. cbn [find_stop]. unfold stop3 at 1.
  destruct (get_value_encoded c) as [v|] eqn:Hv.
  - rewrite (get_value_not_pad _ _ Hv). reflexivity.
  - destruct (c =? 61); cbn [b64_groups]; [reflexivity|]. rewrite IH.
    destruct (find_stop stop3 l) as [[[[s x] [v|]] r]|]; reflexivity.
Qed.
Lemma groups3 : forall a b c l,
  b64_groups (G3 a b c) (symbols l) =
    match find_stop (stop4 (Some c)) l with
    | Some (s, x, Ok (Some d), r) => option_map (app [octet1 a b; octet2 a b c; octet3 a b c d]) (b64_groups G0 (symbols r))
    | Some (s, x, Ok None, r) => option_map (app [octet1 a b; octet2 a b c]) (b64_groups G0 (symbols r))
    | _ => None
    end.
Proof.
  induction l as [|x l IH]; [reflexivity|]. rewrite symbols_cons. cbn [find_stop]. unfold stop4 at 1.
  destruct (get_value_encoded x) as [v|] eqn:Hv.
  - rewrite (get_value_not_pad _ _ Hv). reflexivity.
  - destruct (x =? 61); cbn [b64_groups]; [reflexivity|]. rewrite IH.
    destruct (find_stop (stop4 (Some c)) l) as [[[[s y] [[v|]|e|k]] r]|]; reflexivity.
Qed.
Lemma groups3p : forall a b l,
  b64_groups (G3Pad a b) (symbols l) =
    match find_stop (stop4 None) l with
    | Some (s, x, Ok _, r) => option_map (app [octet1 a b]) (b64_groups G0 (symbols r))
    | _ => None
    end.
Proof.
  induction l as [|x l IH]; [reflexivity|]. rewrite symbols_cons. cbn [find_stop]. unfold stop4 at 1.
  destruct (get_value_encoded x) as [v|] eqn:Hv.
  - rewrite (get_value_not_pad _ _ Hv). reflexivity.
  - destruct (x =? 61); cbn [b64_groups]; [reflexivity|]. rewrite IH.
    destruct (find_stop (stop4 None) l) as [[[[s y] [[v|]|e|k]] r]|]; reflexivity.
Qed.

(* what the scans can find *)
Lemma find_stop_inv : forall R (stop : N -> option R) l s x v r,
  find_stop stop l = Some (s, x, v, r) -> stop x = Some v.
Proof.
  induction l as [|c l IH]; cbn; [discriminate|]. intros s x v r. destruct (stop c) eqn:Hc.
  - intros H. inversion H. now subst.
  - destruct (find_stop stop l) as [[[[s' x'] v'] r']|]; [|discriminate].
    intros H. inversion H. subst. eauto.
Qed.

(* bits *)
Ltac bits64 a Ha f :=
  apply N.eqb_eq; refine (below_spec 64 f _ a Ha); vm_compute; reflexivity.
Lemma shl2 : forall a, a < 64 -> u8_shl a 2 = a * 4.
Proof. intros a Ha. bits64 a Ha (fun a => u8_shl a 2 =? a * 4). Qed.
Lemma and48 : forall a, a < 64 -> u8_shr (u8_and a 48) 4 = a / 16.
Proof. intros a Ha. bits64 a Ha (fun a => u8_shr (u8_and a 48) 4 =? a / 16). Qed.
Lemma and15 : forall a, a < 64 -> u8_shl (u8_and a 15) 4 = a mod 16 * 16.
Proof. intros a Ha. bits64 a Ha (fun a => u8_shl (u8_and a 15) 4 =? a mod 16 * 16). Qed.
Lemma and60 : forall a, a < 64 -> u8_shr (u8_and a 60) 2 = a / 4.
Proof. intros a Ha. bits64 a Ha (fun a => u8_shr (u8_and a 60) 2 =? a / 4). Qed.
Lemma and3 : forall a, a < 64 -> u8_shl (u8_and a 3) 6 = a mod 4 * 64.
Proof. intros a Ha. bits64 a Ha (fun a => u8_shl (u8_and a 3) 6 =? a mod 4 * 64). Qed.

Lemma u8_add_ok : forall E a b, a + b < 256 -> u8_add E a b = Ok (a + b).
Proof. intros. unfold u8_add. destruct (N.ltb_spec (a + b) 256); [reflexivity|lia]. Qed.

Lemma octet1_code : forall E a b, a < 64 -> b < 64 ->
  u8_add E (u8_shl a 2) (u8_shr (u8_and b 48) 4) = Ok (octet1 a b).
Proof.
  intros. rewrite shl2, and48 by auto. rewrite u8_add_ok by lia. f_equal. unfold octet1. lia.
Qed.
Lemma octet2_code : forall E a b c, a < 64 -> b < 64 -> c < 64 ->
  u8_add E (u8_shl (u8_and b 15) 4) (u8_shr (u8_and c 60) 2) = Ok (octet2 a b c).
Proof.
  intros. rewrite and15, and60 by auto. rewrite u8_add_ok by lia. f_equal. unfold octet2. lia.
Qed.
Lemma octet3_code : forall E a b c d, a < 64 -> b < 64 -> c < 64 -> d < 64 ->
  u8_add E (u8_shl (u8_and c 3) 6) d = Ok (octet3 a b c d).
Proof.
  intros. rewrite and3 by auto. rewrite u8_add_ok by lia. f_equal. unfold octet3. lia.
Qed.

Lemma usize_sub_ok : forall a b, (b <= a)%nat -> usize_sub a b = Ok (a - b)%nat.
Proof. intros. unfold usize_sub. destruct (Nat.ltb_spec a b); [lia|reflexivity]. Qed.

(* the result of the decoder matches an optional value *)
Definition decodes (x : res bytes) (out : bytes) (o : option bytes) : Prop :=
  match o with
  | Some v => x = Ok (out ++ v)
  | None => exists w, x = Err (Unknown w)
  end.

Lemma decodes_app : forall x out p o, decodes x (out ++ p) o -> decodes x out (option_map (app p) o).
Proof. intros x out p [v|]; cbn; auto. now rewrite app_assoc. Qed.

Lemma decode_base64_loop_spec : forall E n todo out junk,
  (length todo < n)%nat ->
  decodes (decode_base64_loop E n (out ++ junk ++ todo) (length out + length junk) (length junk))
          out (b64_groups G0 (symbols todo)).
Proof.
  intros E. induction n as [|n IH]; intros todo out junk Hn; [lia|].
  cbn [decode_base64_loop]. rewrite groups0.
  set (data := out ++ junk ++ todo). assert (Hlen : (length data = length out + length junk + length todo)%nat).
  { unfold data. rewrite !app_length. lia. }
  set (fuel := S (length data)).
  (* first character *)
  replace data with ((out ++ junk) ++ todo) at 1 by (unfold data; now rewrite app_assoc).
  rewrite scan_spec by (rewrite ?app_length; unfold fuel; lia).
  destruct (find_stop get_value_encoded todo) as [[[[s0 x0] v0] r0]|] eqn:F0; cbn [bind].
  2:{ cbn [decodes]. rewrite usize_sub_ok by lia. cbn [bind]. f_equal. rewrite app_nil_r.
      replace (length out + length junk + length todo - (length junk + length todo))%nat with (length out) by lia.
      unfold data. rewrite firstn_app, firstn_all, Nat.sub_diag. cbn. apply app_nil_r. }
  pose proof (find_stop_app _ _ _ _ _ _ _ F0) as T0. pose proof (get_value_lt _ _ (find_stop_inv _ _ _ _ _ _ _ F0)) as B0.
  rewrite groups1.
  (* second *)
  replace data with ((out ++ junk ++ s0 ++ [x0]) ++ r0) at 1 by (unfold data; rewrite T0, <- !app_assoc; reflexivity).
  rewrite scan_spec by (subst todo; rewrite ?app_length in *; cbn [length] in *; unfold fuel; lia).
  destruct (find_stop get_value_encoded r0) as [[[[s1 x1] v1] r1]|] eqn:F1; cbn [bind]; [|cbn; eauto].
  pose proof (find_stop_app _ _ _ _ _ _ _ F1) as T1. pose proof (get_value_lt _ _ (find_stop_inv _ _ _ _ _ _ _ F1)) as B1.
  rewrite groups2.
  (* third *)
  replace data with ((out ++ junk ++ s0 ++ [x0] ++ s1 ++ [x1]) ++ r1) at 1
    by (unfold data; rewrite T0, T1, <- !app_assoc; reflexivity).
  rewrite scan_spec by (subst todo r0; rewrite ?app_length in *; cbn [length] in *; rewrite ?app_length in *; cbn [length] in *; unfold fuel; lia).
  destruct (find_stop stop3 r1) as [[[[s2 x2] v2] r2]|] eqn:F2; cbn [bind]; [|cbn; eauto].
  pose proof (find_stop_app _ _ _ _ _ _ _ F2) as T2.
  assert (B2 : forall v, v2 = Some v -> v < 64).
  { intros v ->. apply find_stop_inv in F2. unfold stop3 in F2. destruct (x2 =? 61); [discriminate|].
    destruct (get_value_encoded x2) eqn:G; [|discriminate]. inversion F2; subst. eapply get_value_lt; eauto. }
  (* fourth *)
  replace data with ((out ++ junk ++ s0 ++ [x0] ++ s1 ++ [x1] ++ s2 ++ [x2]) ++ r2) at 1
    by (unfold data; rewrite T0, T1, T2, <- !app_assoc; reflexivity).
  rewrite scan_spec by (subst todo r0 r1; rewrite ?app_length in *; cbn [length] in *; rewrite ?app_length in *; cbn [length] in *; rewrite ?app_length in *; cbn [length] in *; unfold fuel; lia).
  replace (match v2 with Some v => b64_groups (G3 v0 v1 v) (symbols r2) | None => b64_groups (G3Pad v0 v1) (symbols r2) end)
    with (match find_stop (stop4 v2) r2 with
          | Some (_, _, Ok v3, r) => option_map (app (match v2, v3 with
                | Some c, Some d => [octet1 v0 v1; octet2 v0 v1 c; octet3 v0 v1 c d]
                | Some c, None => [octet1 v0 v1; octet2 v0 v1 c]
                | None, _ => [octet1 v0 v1] end)) (b64_groups G0 (symbols r))
          | _ => None end)
    by (destruct v2 as [v2|]; rewrite ?groups3, ?groups3p;
        destruct (find_stop _ r2) as [[[[? ?] [[?|]| |]] ?]|]; reflexivity).
  destruct (find_stop (stop4 v2) r2) as [[[[s3 x3] v3] r3]|] eqn:F3; cbn [bind]; [|cbn; eauto].
  pose proof (find_stop_app _ _ _ _ _ _ _ F3) as T3.
  assert (B3 : match v3 with Ok (Some v) => v < 64 | Crash _ => False | Err e => exists w, e = Unknown w | Ok None => True end).
  { apply find_stop_inv in F3. unfold stop4 in F3. destruct (x3 =? 61); [inversion F3; exact I|].
    destruct (get_value_encoded x3) eqn:G; [|discriminate].
    destruct v2; inversion F3; [|eauto]. eapply get_value_lt; eauto. }
  destruct v3 as [v3|e|k]; cbn [bind]; [|destruct B3 as [w ->]; cbn; eauto|contradiction].
  (* the writes *)
  assert (Hd : data = out ++ (junk ++ s0 ++ [x0] ++ s1 ++ [x1] ++ s2 ++ [x2] ++ s3 ++ [x3]) ++ r3).
  { unfold data. rewrite T0, T1, T2, T3. repeat (rewrite <- ?app_assoc; cbn [app]). reflexivity. }
  set (W := junk ++ s0 ++ [x0] ++ s1 ++ [x1] ++ s2 ++ [x2] ++ s3 ++ [x3]) in Hd.
  assert (HW : (length W = length junk + length s0 + length s1 + length s2 + length s3 + 4)%nat).
  { unfold W. rewrite !app_length. cbn [length]. lia. }
  assert (Hr3 : (length r3 < n)%nat).
  { rewrite T0, T1, T2, T3 in Hn. rewrite ?app_length in Hn. cbn [length] in Hn. rewrite ?app_length in Hn. cbn [length] in Hn.
    rewrite ?app_length in Hn. cbn [length] in Hn. rewrite ?app_length in Hn. cbn [length] in Hn. lia. }
  destruct W as [|y1 [|y2 [|y3 [|y4 W]]]]; cbn [length] in HW; try lia.
  clearbody data. subst data. clear F0 F1 F2 F3 T0 T1 T2 T3 Hlen.
  rewrite usize_sub_ok by lia. cbn [bind]. rewrite octet1_code by auto. cbn [bind].
  match goal with |- context [unchecked_set _ ?p _] => replace p with (length out) by lia end.
  cbn [app]. rewrite unchecked_set_at. cbn [bind].
  destruct v2 as [v2|].
  - specialize (B2 v2 eq_refl). rewrite usize_sub_ok by lia. cbn [bind].
    rewrite (octet2_code E v0 v1 v2) by auto. cbn [bind].
    match goal with |- context [unchecked_set _ ?p _] => replace p with (length (out ++ [octet1 v0 v1])) by (rewrite app_length; cbn; lia) end.
    replace (out ++ octet1 v0 v1 :: y2 :: y3 :: y4 :: W ++ r3) with ((out ++ [octet1 v0 v1]) ++ y2 :: y3 :: y4 :: W ++ r3) by (rewrite <- app_assoc; reflexivity).
    rewrite unchecked_set_at. cbn [bind].
    destruct v3 as [v3|].
    + rewrite usize_sub_ok by lia. cbn [bind]. rewrite (octet3_code E v0 v1 v2 v3) by auto. cbn [bind].
      match goal with |- context [unchecked_set _ ?p _] => replace p with (length (out ++ [octet1 v0 v1; octet2 v0 v1 v2])) by (rewrite app_length; cbn; lia) end.
      rewrite <- app_assoc. cbn [app].
      replace (out ++ octet1 v0 v1 :: octet2 v0 v1 v2 :: y3 :: y4 :: W ++ r3) with ((out ++ [octet1 v0 v1; octet2 v0 v1 v2]) ++ y3 :: y4 :: W ++ r3) by (rewrite <- app_assoc; reflexivity).
      rewrite unchecked_set_at. cbn [bind].
      apply (decodes_app _ _ [octet1 v0 v1; octet2 v0 v1 v2; octet3 v0 v1 v2 v3]).
      specialize (IH r3 (out ++ [octet1 v0 v1; octet2 v0 v1 v2; octet3 v0 v1 v2 v3]) (y4 :: W) Hr3).
      rewrite <- !app_assoc in IH. cbn [app] in IH. rewrite app_length in IH. cbn [length] in IH.
      rewrite <- !app_assoc. cbn [app].
      match goal with H : decodes (decode_base64_loop _ _ _ ?a ?b) _ _ |- decodes (decode_base64_loop _ _ _ ?c ?d) _ _ =>
        replace c with a by lia; replace d with b by lia; exact H end.
    + cbn [bind]. apply (decodes_app _ _ [octet1 v0 v1; octet2 v0 v1 v2]).
      specialize (IH r3 (out ++ [octet1 v0 v1; octet2 v0 v1 v2]) (y3 :: y4 :: W) Hr3).
      rewrite <- !app_assoc in IH. cbn [app] in IH. rewrite app_length in IH. cbn [length] in IH.
      rewrite <- !app_assoc. cbn [app].
      match goal with H : decodes (decode_base64_loop _ _ _ ?a ?b) _ _ |- decodes (decode_base64_loop _ _ _ ?c ?d) _ _ =>
        replace c with a by lia; replace d with b by lia; exact H end.
  - cbn [bind]. apply (decodes_app _ _ [octet1 v0 v1]).
    specialize (IH r3 (out ++ [octet1 v0 v1]) (y2 :: y3 :: y4 :: W) Hr3).
    rewrite <- !app_assoc in IH. cbn [app] in IH. rewrite app_length in IH. cbn [length] in IH.
    match goal with H : decodes (decode_base64_loop _ _ _ ?a ?b) _ _ |- decodes (decode_base64_loop _ _ _ ?c ?d) _ _ =>
        replace c with a by lia; replace d with b by lia; exact H end.
Qed.

Theorem decode_base64_spec : forall E data,
  match b64_decoding data with
  | Some v => decode_base64 E data = Ok v
  | None => exists w, decode_base64 E data = Err (Unknown w)
  end.
Proof.
  intros E data. pose proof (decode_base64_loop_spec E (S (length data)) data [] [] ltac:(lia)) as H.
  cbn in H. unfold decode_base64, b64_decoding. exact H.
Qed.

(* ---------------- encoder ---------------- *)
Definition alphabet_or_pad (c : N) : Prop := In c b64_alphabet \/ c = 61.
Definition crlf_char (c : N) : bool := (c =? 13) || (c =? 10).
Definition strip (l : bytes) : bytes := filter (fun c => negb (crlf_char c)) l.

Lemma base64_char_spec : forall v, v < 64 -> base64_char v = Ok (b64_symbol v).
Proof.
  intros v Hv.
  assert (H : match base64_char v with Ok c => c =? b64_symbol v | _ => false end = true).
  { refine (below_spec 64 (fun v => match base64_char v with Ok c => c =? b64_symbol v | _ => false end) _ v Hv).
    vm_compute. reflexivity. }
  destruct (base64_char v); try discriminate. apply N.eqb_eq in H. now subst.
Qed.
Lemma b64_symbol_value : forall v, v < 64 -> b64_value (b64_symbol v) = Some v.
Proof.
  intros v Hv. apply opt_eqb_eq.
  refine (below_spec 64 (fun v => opt_eqb (b64_value (b64_symbol v)) (Some v)) _ v Hv). vm_compute. reflexivity.
Qed.
Lemma b64_symbol_in : forall v, v < 64 -> In (b64_symbol v) b64_alphabet.
Proof. intros v Hv. apply nth_In. cbn. lia. Qed.
Lemma alphabet_not_crlf : forall c, alphabet_or_pad c -> crlf_char c = false.
Proof.
  assert (H : forallb (fun c => negb (crlf_char c)) (61 :: b64_alphabet) = true) by (vm_compute; reflexivity).
  rewrite forallb_forall in H. intros c Hc. apply negb_true_iff, H.
  destruct Hc as [Hc| ->]; cbn; auto.
Qed.

Ltac bits256 a Ha f :=
  apply N.eqb_eq; refine (below_spec 256 f _ a Ha); vm_compute; reflexivity.
Lemma enc_252 : forall a, a < 256 -> u8_shr (u8_and 252 a) 2 = a / 4.
Proof. intros a Ha. bits256 a Ha (fun a => u8_shr (u8_and 252 a) 2 =? a / 4). Qed.
Lemma enc_3 : forall a, a < 256 -> u8_shl (u8_and 3 a) 4 = a mod 4 * 16.
Proof. intros a Ha. bits256 a Ha (fun a => u8_shl (u8_and 3 a) 4 =? a mod 4 * 16). Qed.
Lemma enc_240 : forall a, a < 256 -> u8_shr (u8_and 240 a) 4 = a / 16.
Proof. intros a Ha. bits256 a Ha (fun a => u8_shr (u8_and 240 a) 4 =? a / 16). Qed.
Lemma enc_15 : forall a, a < 256 -> u8_shl (u8_and 15 a) 2 = a mod 16 * 4.
Proof. intros a Ha. bits256 a Ha (fun a => u8_shl (u8_and 15 a) 2 =? a mod 16 * 4). Qed.
Lemma enc_192 : forall a, a < 256 -> u8_shr (u8_and 192 a) 6 = a / 64.
Proof. intros a Ha. bits256 a Ha (fun a => u8_shr (u8_and 192 a) 6 =? a / 64). Qed.
Lemma enc_63 : forall a, a < 256 -> u8_and 63 a = a mod 64.
Proof. intros a Ha. bits256 a Ha (fun a => u8_and 63 a =? a mod 64). Qed.

(* induction by three *)
Lemma list_ind3 : forall (P : bytes -> Prop),
  P [] -> (forall a, P [a]) -> (forall a b, P [a; b]) ->
  (forall a b c l, P l -> P (a :: b :: c :: l)) -> forall l, P l.
Proof.
  intros P H0 H1 H2 H3. fix IH 1. intros [|a [|b [|c l]]];
    [exact H0 | exact (H1 a) | exact (H2 a b) | exact (H3 a b c l (IH l))].
Qed.

(* the line structure: [line] characters are already on the current line *)
Fixpoint wrapped (l : list (list N)) (line : nat) : bytes :=
  match l with
  | [] => []
  | g :: r => if (72 <=? line)%nat then CRLF ++ g ++ wrapped r 4 else g ++ wrapped r (line + 4)
  end.

Fixpoint enc_groups (l : bytes) : list (list N) :=
  match l with
  | [] => []
  | [x] => [[b64_symbol (x / 4); b64_symbol (x mod 4 * 16); 61; 61]]
  | [x; y] => [[b64_symbol (x / 4); b64_symbol (x mod 4 * 16 + y / 16); b64_symbol (y mod 16 * 4); 61]]
  | x :: y :: z :: r =>
    [b64_symbol (x / 4); b64_symbol (x mod 4 * 16 + y / 16);
      b64_symbol (y mod 16 * 4 + z / 64); b64_symbol (z mod 64)] :: enc_groups r
  end.

Lemma concat_enc_groups : forall l, concat (enc_groups l) = b64_encoding l.
Proof.
  apply list_ind3; try reflexivity. intros a b c l IH. cbn [enc_groups concat b64_encoding]. now rewrite IH.
Qed.

Definition good_group (g : list N) : Prop := length g = 4%nat /\ Forall alphabet_or_pad g.

Ltac wfinv := repeat match goal with H : wf_bytes (_ :: _) |- _ => inversion H; clear H; subst
  | H : Forall wf_byte (_ :: _) |- _ => inversion H; clear H; subst end; unfold wf_byte in *.

Lemma enc_groups_good : forall l, wf_bytes l -> Forall good_group (enc_groups l).
Proof.
  assert (S : forall v, v < 64 -> alphabet_or_pad (b64_symbol v)) by (intros; left; now apply b64_symbol_in).
  assert (P : alphabet_or_pad 61) by (right; reflexivity).
  intros l. pattern l. apply list_ind3; clear l.
  - intros. constructor.
  - intros x H. wfinv. constructor; [|constructor]. split; [reflexivity|]. repeat (apply Forall_cons; [first [exact P | apply S; lia]|]); apply Forall_nil.
  - intros x y H. wfinv. constructor; [|constructor]. split; [reflexivity|]. repeat (apply Forall_cons; [first [exact P | apply S; lia]|]); apply Forall_nil.
  - intros x y z l IH H. wfinv. cbn [enc_groups]. constructor; [|auto]. split; [reflexivity|]. repeat (apply Forall_cons; [first [exact P | apply S; lia]|]); apply Forall_nil.
Qed.

Lemma encode_base64_loop_spec : forall E l line, wf_bytes l ->
  encode_base64_loop E l line = Ok (wrapped (enc_groups l) line).
Proof.
  intros E l. pattern l. apply list_ind3; clear l.
  - reflexivity.
  - intros x line H. wfinv. cbn [encode_base64_loop enc_groups wrapped].
    rewrite enc_252, enc_3 by auto. rewrite !base64_char_spec by lia. cbn [bind].
    destruct (72 <=? line)%nat; reflexivity.
  - intros x y line H. wfinv. cbn [encode_base64_loop enc_groups wrapped].
    rewrite enc_252, enc_3, enc_240, enc_15 by auto. rewrite !u8_add_ok by lia. cbn [bind].
    rewrite !base64_char_spec by lia. cbn [bind]. destruct (72 <=? line)%nat; reflexivity.
  - intros x y z l IH line H. wfinv. cbn [encode_base64_loop enc_groups wrapped].
    rewrite enc_252, enc_3, enc_240, enc_15, enc_192, enc_63 by auto. rewrite !u8_add_ok by lia. cbn [bind].
    rewrite !base64_char_spec by lia. cbn [bind]. rewrite IH by auto. cbn [bind].
    destruct (72 <=? line)%nat; reflexivity.
Qed.

Lemma strip_app : forall a b, strip (a ++ b) = strip a ++ strip b.
Proof. intros. unfold strip. apply filter_app. Qed.
Lemma strip_id : forall a, Forall alphabet_or_pad a -> strip a = a.
Proof.
  intros a H. induction H as [|c a Hc Ha IH]; [reflexivity|]. cbn. rewrite alphabet_not_crlf by auto. cbn. now f_equal.
Qed.
Lemma strip_wrapped : forall gs line, Forall good_group gs -> strip (wrapped gs line) = concat gs.
Proof.
  intros gs. induction gs as [|g gs IH]; intros line H; [reflexivity|]. inversion H as [|? ? [_ Hg] Hgs]; subst.
  cbn [wrapped concat]. destruct (72 <=? line)%nat; rewrite !strip_app, IH, (strip_id g) by auto; reflexivity.
Qed.

Lemma symbols_app : forall a b, symbols (a ++ b) = symbols a ++ symbols b.
Proof.
  induction a as [|c a IH]; intros b; [reflexivity|]. cbn [app symbols]. rewrite IH.
  destruct (b64_value c); [reflexivity|]. destruct (c =? 61); reflexivity.
Qed.
Lemma symbols_strip : forall l, symbols (strip l) = symbols l.
Proof.
  induction l as [|c l IH]; [reflexivity|]. cbn [strip filter]. fold (strip l).
  destruct (crlf_char c) eqn:Hc; cbn [negb].
  - rewrite IH. unfold crlf_char in Hc. cbn [symbols]. apply orb_true_iff in Hc as [Hc|Hc]; apply N.eqb_eq in Hc; subst; reflexivity.
  - cbn [symbols]. now rewrite IH.
Qed.

Lemma symbols_cons_sym : forall v l, v < 64 -> symbols (b64_symbol v :: l) = V v :: symbols l.
Proof. intros. cbn [symbols]. rewrite b64_symbol_value by auto. reflexivity. Qed.

Lemma encoding_decoding : forall l, wf_bytes l -> b64_decoding (b64_encoding l) = Some l.
Proof.
  intros l. pattern l. apply list_ind3; clear l; unfold b64_decoding.
  - reflexivity.
  - intros x H. wfinv. cbn [b64_encoding]. rewrite !symbols_cons_sym by lia. cbn. do 2 f_equal. unfold octet1. lia.
  - intros x y H. wfinv. cbn [b64_encoding]. rewrite !symbols_cons_sym by lia. cbn. unfold octet1, octet2. do 2 f_equal; [lia|]. f_equal. lia.
  - intros x y z l IH H. wfinv. cbn [b64_encoding]. rewrite !symbols_cons_sym by lia.
    cbn [b64_groups]. rewrite IH by auto. cbn. unfold octet1, octet2, octet3. do 2 f_equal; [lia|]. f_equal; [lia|]. f_equal. lia.
Qed.

(* lines *)
Definition no_cr (l : bytes) : Prop := Forall (fun c => c <> 13) l.
Lemma lines_of_app : forall a b, no_cr a -> lines_of (a ++ CRLF ++ b) = a :: lines_of b.
Proof.
  intros a b H. induction H as [|c a Hc Ha IH]; [reflexivity|].
  cbn [app lines_of]. unfold CRLF in *. cbn [app] in *.
  destruct (a ++ 13 :: 10 :: b) as [|d r] eqn:Hr; [destruct a; discriminate|].
  replace (c =? 13) with false by (symmetry; now apply N.eqb_neq). cbn [andb]. rewrite IH. reflexivity.
Qed.
Lemma lines_of_one : forall a, no_cr a -> lines_of a = [a].
Proof.
  intros a H. induction H as [|c a Hc Ha IH]; [reflexivity|].
  cbn [lines_of]. destruct a as [|d r]; [reflexivity|].
  replace (c =? 13) with false by (symmetry; now apply N.eqb_neq). cbn [andb]. rewrite IH. reflexivity.
Qed.
Lemma lines_of_prefix : forall a b, no_cr a -> exists h t, lines_of b = h :: t /\ lines_of (a ++ b) = (a ++ h) :: t.
Proof.
  intros a b H. assert (Hb : exists h t, lines_of b = h :: t).
  { destruct b as [|c b]; cbn; eauto. destruct b as [|d b]; cbn; eauto.
    destruct ((c =? 13) && (d =? 10)); eauto. unfold add_to_first. destruct (match b with [] => _ | _ => _ end); eauto. }
  destruct Hb as (h & t & Hb). exists h, t. split; auto.
  induction H as [|c a Hc Ha IH]; [exact Hb|].
  cbn [app lines_of]. destruct (a ++ b) as [|d r] eqn:Hr.
  - apply app_eq_nil in Hr as [-> ->]. cbn in *. inversion Hb. reflexivity.
  - replace (c =? 13) with false by (symmetry; now apply N.eqb_neq). cbn [andb]. rewrite IH. reflexivity.
Qed.

Lemma good_group_no_cr : forall g, good_group g -> no_cr g.
Proof.
  intros g [_ H]. eapply Forall_impl; [|exact H]. intros c Hc ->. apply alphabet_not_crlf in Hc. discriminate.
Qed.

Lemma wrapped_lines : forall gs k, Forall good_group gs -> (k <= 18)%nat ->
  exists h t, lines_of (wrapped gs (4 * k)) = h :: t /\ (length h + 4 * k <= 72)%nat /\ Forall (fun l => length l <= 72)%nat t.
Proof.
  induction gs as [|g gs IH]; intros k H Hline.
  - exists [], []. cbn [wrapped lines_of length]. repeat split; auto. lia.
  - inversion H as [|? ? Hg Hgs]; subst. cbn [wrapped]. pose proof Hg as [Hlen _].
    destruct (Nat.leb_spec 72 (4 * k)).
    + destruct (IH 1%nat Hgs ltac:(lia)) as (h & t & Hl & Hh & Ht).
      exists [], ((g ++ h) :: t). split; [|split].
      * change (CRLF ++ g ++ wrapped gs 4) with ([] ++ CRLF ++ (g ++ wrapped gs (4 * 1))). rewrite lines_of_app by constructor.
        destruct (lines_of_prefix g (wrapped gs (4 * 1)) (good_group_no_cr _ Hg)) as (h' & t' & E1 & ->).
        rewrite Hl in E1. inversion E1. reflexivity.
      * cbn [length]. lia.
      * constructor; auto. rewrite app_length. lia.
    + replace (4 * k + 4)%nat with (4 * (S k))%nat by lia.
      destruct (IH (S k) Hgs ltac:(lia)) as (h & t & Hl & Hh & Ht).
      exists (g ++ h), t. split; [|split; auto].
      * destruct (lines_of_prefix g (wrapped gs (4 * S k)) (good_group_no_cr _ Hg)) as (h' & t' & E1 & ->).
        rewrite Hl in E1. inversion E1. reflexivity.
      * rewrite app_length. lia.
Qed.

Lemma encode_base64_spec : forall E l, wf_bytes l -> encode_base64 E l = Ok (wrapped (enc_groups l) 0).
Proof. intros. now apply encode_base64_loop_spec. Qed.

Lemma base64_round_trip : forall E l, wf_bytes l ->
  exists t, encode_base64 E l = Ok t /\ decode_base64 E t = Ok l.
Proof.
  intros E l H. eexists. split; [now apply encode_base64_spec|].
  pose proof (decode_base64_spec E (wrapped (enc_groups l) 0)) as D. unfold b64_decoding in D.
  rewrite <- symbols_strip, strip_wrapped, concat_enc_groups in D by (now apply enc_groups_good).
  pose proof (encoding_decoding l H) as R. unfold b64_decoding in R. rewrite R in D. exact D.
Qed.

Lemma foreign_symbols : forall n, Forall (fun c => ~ In c b64_alphabet /\ c <> 61) n -> symbols n = [].
Proof.
  intros n H. induction H as [|c n [Hc Hp] Hn IH]; [reflexivity|]. cbn [symbols].
  unfold b64_value. destruct (position c b64_alphabet) eqn:Hpos.
  - exfalso. apply Hc. clear - Hpos. revert n0 Hpos. induction b64_alphabet as [|x r IH]; intros v Hv; [discriminate|].
    cbn in Hv. destruct (N.eqb_spec c x); [left; auto|]. destruct (position c r); [|discriminate]. right. eapply IH. reflexivity.
  - replace (c =? 61) with false by (symmetry; now apply N.eqb_neq). exact IH.
Qed.

Lemma decode_base64_symbols : forall E a b, symbols a = symbols b ->
  forall v, decode_base64 E a = Ok v <-> decode_base64 E b = Ok v.
Proof.
  intros E a b H v. pose proof (decode_base64_spec E a) as A. pose proof (decode_base64_spec E b) as B.
  unfold b64_decoding in *. rewrite H in A. destruct (b64_groups G0 (symbols b)).
  - rewrite A, B. reflexivity.
  - destruct A as [e1 ->], B as [e2 ->]. split; discriminate.
Qed.

Lemma base64_foreign : forall E a n b v, Forall (fun c => ~ In c b64_alphabet /\ c <> 61) n ->
  decode_base64 E (a ++ n ++ b) = Ok v <-> decode_base64 E (a ++ b) = Ok v.
Proof.
  intros E a n b v H. apply decode_base64_symbols. rewrite !symbols_app, (foreign_symbols n) by auto. reflexivity.
Qed.

Lemma wrapped_chars : forall gs line c, Forall good_group gs -> In c (wrapped gs line) ->
  alphabet_or_pad c \/ c = 13 \/ c = 10.
Proof.
  induction gs as [|g gs IH]; intros line c H Hc; [destruct Hc|]. inversion H as [|? ? [_ Hg] Hgs]; subst.
  rewrite Forall_forall in Hg. cbn [wrapped] in Hc.
  destruct (72 <=? line)%nat; rewrite ?in_app_iff in Hc.
  - destruct Hc as [Hc|[Hc|Hc]]; eauto. cbn in Hc. intuition.
  - destruct Hc as [Hc|Hc]; eauto.
Qed.

Lemma b64_encoding_length : forall l, length (b64_encoding l) = (4 * ((length l + 2) / 3))%nat.
Proof.
  apply list_ind3; try reflexivity. intros a b c l IH. cbn [b64_encoding length]. rewrite IH.
  replace (S (S (S (length l))) + 2)%nat with ((length l + 2) + 1 * 3)%nat by lia. rewrite Nat.div_add by lia. lia.
Qed.

Lemma base64_shape : forall E l, wf_bytes l -> exists t, encode_base64 E l = Ok t
  /\ (forall c, In c t -> In c b64_alphabet \/ c = 61 \/ c = 13 \/ c = 10)
  /\ Forall (fun line => (length line <= 76)%nat) (lines_of t)
  /\ concat (lines_of t) = b64_encoding l
  /\ length (concat (lines_of t)) = (4 * ((length l + 2) / 3))%nat.
Proof.
  intros E l H. eexists. split; [now apply encode_base64_spec|]. pose proof (enc_groups_good l H) as G.
  assert (C : forall gs line, Forall good_group gs -> concat (lines_of (wrapped gs line)) = concat gs).
  { clear. induction gs as [|g gs IH]; intros line H; [reflexivity|]. inversion H as [|? ? Hg Hgs]; subst.
    cbn [wrapped]. destruct (72 <=? line)%nat.
    - change (CRLF ++ g ++ wrapped gs 4) with ([] ++ CRLF ++ (g ++ wrapped gs 4)). rewrite lines_of_app by constructor.
      destruct (lines_of_prefix g (wrapped gs 4) (good_group_no_cr _ Hg)) as (h' & t' & E1 & ->).
      cbn [concat app]. rewrite <- app_assoc. f_equal. rewrite <- (IH 4%nat) by auto. rewrite E1. reflexivity.
    - destruct (lines_of_prefix g (wrapped gs (line + 4)) (good_group_no_cr _ Hg)) as (h' & t' & E1 & ->).
      cbn [concat app]. rewrite <- app_assoc. f_equal. rewrite <- (IH (line + 4)%nat) by auto. rewrite E1. reflexivity. }
  repeat split.
  - intros c Hc. destruct (wrapped_chars _ _ _ G Hc) as [[?|?]|[?|?]]; auto.
  - destruct (wrapped_lines (enc_groups l) 0 G ltac:(lia)) as (h & t & Hl & Hh & Ht).
    change (4 * 0)%nat with 0%nat in *. rewrite Hl. constructor; [lia|]. eapply Forall_impl; [|exact Ht]. cbn. lia.
  - rewrite C, concat_enc_groups by auto. reflexivity.
  - rewrite C, concat_enc_groups, b64_encoding_length by auto. reflexivity.
Qed.

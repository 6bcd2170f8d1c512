(* Quoted-printable: the in-place loops compute list functions. *)
From Coq Require Import ZArith Lia ZifyBool ZifyNat ZifyN.
From Verif Require Import Base Utf8 QuotedPrintable CodecSpec CodecArith Base64Proofs.
Ltac Zify.zify_post_hook ::= Z.to_euclidean_division_equations.
Local Open Scope N_scope.

Lemma from_hex_spec : forall c, from_hex c = hex_value c.
Proof.
  intros c. destruct (N.lt_ge_cases c 128) as [H|H].
  - apply opt_eqb_eq. refine (below_spec 128 (fun c => opt_eqb (from_hex c) (hex_value c)) _ c H). vm_compute. reflexivity.
  - unfold hex_value. rewrite !(position_none 128) by (auto; repeat (apply Forall_cons; [reflexivity|]); apply Forall_nil).
    unfold from_hex.
    destruct (N.leb_spec 48 c), (N.leb_spec c 57), (N.leb_spec 65 c), (N.leb_spec c 70), (N.leb_spec 97 c), (N.leb_spec c 102);
      cbn [andb]; try reflexivity; lia.
Qed.
Lemma hex_value_lt : forall c v, hex_value c = Some v -> v < 16.
Proof.
  intros c v. unfold hex_value. destruct (position c (bs "0123456789ABCDEF")) eqn:E; intros H.
  - inversion H; subst. apply position_lt in E. exact E.
  - apply position_lt in H. exact H.
Qed.

Lemma vec_drain3_at : forall (a b : bytes) x y z, vec_drain (a ++ x :: y :: z :: b) (length a) (length a + 3) = Ok (a ++ b).
Proof.
  intros. unfold vec_drain. rewrite app_length. cbn [length].
  destruct (Nat.leb_spec (length a) (length a + 3)); [|lia].
  destruct (Nat.leb_spec (length a + 3) (length a + S (S (S (length b))))); [|lia]. cbn [andb].
  rewrite firstn_app, firstn_all, Nat.sub_diag. cbn [firstn]. rewrite app_nil_r. do 2 f_equal.
  rewrite skipn_app, skipn_all2 by lia. replace (length a + 3 - length a)%nat with 3%nat by lia. reflexivity.
Qed.

Lemma get_is_at : forall a b k x, get_is (a ++ b) (length a + k) x = get_is b k x.
Proof. intros. unfold get_is. now rewrite nth_error_at. Qed.

Lemma put_replacement_at : forall a b c, put_replacement (a ++ c :: b) (length a) = Ok (a ++ REPLACEMENT ++ b).
Proof.
  intros. unfold put_replacement. rewrite vec_set_at. cbn [bind]. rewrite vec_insert_at. cbn [bind]. now rewrite vec_insert_at.
Qed.

Lemma u8_mul_ok : forall E a b, a * b < 256 -> u8_mul E a b = Ok (a * b).
Proof. intros. unfold u8_mul. destruct (N.ltb_spec (a * b) 256); [reflexivity|lia]. Qed.
Lemma u8_sub_ok : forall E a b, b <= a -> u8_sub E a b = Ok (a - b).
Proof. intros. unfold u8_sub. destruct (N.leb_spec b a); [reflexivity|lia]. Qed.

Lemma decode_escape_spec : forall E d r,
  decode_escape E (d ++ 61 :: r) (length d) =
  match r with
  | a :: b :: r' => if (a =? 13) && (b =? 10) then Ok (d ++ r', length d)
                    else Ok (d ++ escape a b ++ r', (length d + length (escape a b))%nat)
  | _ => Ok (d ++ 61 :: r, (length d + 1)%nat)
  end.
Proof.
  intros. unfold decode_escape. rewrite !get_is_at. rewrite app_length. cbn [length].
  destruct r as [|a [|b r]].
  - unfold get_is. cbn [nth_error andb length]. destruct (Nat.ltb_spec (length d + 2) (length d + 1)); [lia|reflexivity].
  - cbn [get_is nth_error length]. unfold get_is. cbn [nth_error]. rewrite andb_false_r.
    destruct (Nat.ltb_spec (length d + 2) (length d + 2)); [lia|reflexivity].
  - unfold get_is. cbn [nth_error length]. destruct ((a =? 13) && (b =? 10)).
    + rewrite vec_drain3_at. reflexivity.
    + destruct (Nat.ltb_spec (length d + 2) (length d + S (S (S (length r))))); [|lia].
      replace (d ++ 61 :: a :: b :: r) with ((d ++ [61]) ++ a :: b :: r) by (rewrite <- app_assoc; reflexivity).
      replace (length d + 1)%nat with (length (d ++ [61])) by (rewrite app_length; cbn; lia).
      rewrite vec_remove_at. cbn [bind]. rewrite vec_remove_at. cbn [bind].
      rewrite <- !app_assoc. cbn [app]. rewrite !from_hex_spec. unfold escape.
      destruct (hex_value a) as [x|] eqn:Ha; [destruct (hex_value b) as [y|] eqn:Hb|].
      * apply hex_value_lt in Ha, Hb. rewrite u8_mul_ok by lia. cbn [bind]. rewrite u8_add_ok by lia. cbn [bind].
        rewrite vec_set_at. cbn [bind]. cbn [app length]. rewrite (N.mul_comm x 16). rewrite app_length. reflexivity.
      * rewrite put_replacement_at. cbn [bind]. reflexivity.
      * rewrite put_replacement_at. cbn [bind]. reflexivity.
Qed.

Lemma escape_len : forall a b, (1 <= length (escape a b) <= 3)%nat.
Proof. intros. unfold escape, REPLACEMENT. destruct (hex_value a), (hex_value b); cbn; lia. Qed.

Lemma literal_range : forall c, litteral_repr_possible c || (c =? 32) || (c =? 9)
  = negb (c =? 61) && (((33 <=? c) && (c <=? 126)) || (c =? 32) || (c =? 9)).
Proof. intros. unfold litteral_repr_possible. lia. Qed.

Lemma app_mid : forall (a b c : bytes), a ++ b ++ c = (a ++ b) ++ c.
Proof. intros. apply app_assoc. Qed.

Lemma decode_qp_loop_spec : forall E n d l, (length l < n)%nat ->
  decode_qp_loop E n (d ++ l) (length d) = Ok (d ++ qp_decoding l).
Proof.
  intros E. induction n as [|n IH]; intros d l Hn; [lia|]. cbn [decode_qp_loop].
  rewrite nth_error_at0. destruct l as [|c r]; [reflexivity|].
  assert (STEP : forall x t, (length t < n)%nat -> decode_qp_loop E n (d ++ x ++ t) (length d + length x) = Ok (d ++ x ++ qp_decoding t)).
  { intros x t Ht. rewrite app_mid. rewrite <- app_length. rewrite IH by auto. now rewrite <- app_mid. }
  cbn [nth_error]. cbn [length] in Hn. rewrite literal_range. cbn [qp_decoding].
  destruct (N.eqb_spec c 61) as [->|Hc].
  - cbn [negb andb]. rewrite decode_escape_spec. destruct r as [|a [|b r]].
    + cbn [bind]. apply (STEP [61] []). cbn in *; lia.
    + cbn [bind]. apply (STEP [61] [a]). cbn in *; lia.
    + cbn [length] in Hn. destruct ((a =? 13) && (b =? 10)).
      * cbn [bind]. apply IH. lia.
      * cbn [bind]. apply STEP. lia.
  - cbn [negb andb]. destruct (((33 <=? c) && (c <=? 126)) || (c =? 32) || (c =? 9)).
    + apply (STEP [c] r). lia.
    + replace (get_is (d ++ c :: r) (length d + 1) 10) with (get_is r 0 10) by (now rewrite get_is_at).
      destruct r as [|b r].
      * replace (get_is [] 0 10) with false by reflexivity. rewrite andb_false_r.
        rewrite put_replacement_at. cbn [bind]. apply (STEP REPLACEMENT []). lia.
      * unfold get_is. cbn [nth_error]. destruct ((c =? 13) && (b =? 10)) eqn:H.
        -- apply andb_true_iff in H as [H1 H2]. apply N.eqb_eq in H1, H2. subst. apply (STEP [13; 10] r). cbn in *; lia.
        -- rewrite put_replacement_at. cbn [bind]. apply (STEP REPLACEMENT (b :: r)). lia.
Qed.

Lemma decode_qp_spec : forall E l, decode_qp E l = Ok (qp_decoding l).
Proof. intros. unfold decode_qp. apply (decode_qp_loop_spec E _ [] l). lia. Qed.

Lemma decode_header_qp_loop_spec : forall E n d l, (length l < n)%nat ->
  decode_header_qp_loop E n (d ++ l) (length d) = Ok (d ++ q_decoding l).
Proof.
  intros E. induction n as [|n IH]; intros d l Hn; [lia|]. cbn [decode_header_qp_loop].
  rewrite nth_error_at0. destruct l as [|c r]; [reflexivity|].
  assert (STEP : forall x t, (length t < n)%nat -> decode_header_qp_loop E n (d ++ x ++ t) (length d + length x) = Ok (d ++ x ++ q_decoding t)).
  { intros x t Ht. rewrite app_mid. rewrite <- app_length. rewrite IH by auto. now rewrite <- app_mid. }
  cbn [nth_error]. cbn [length] in Hn. cbn [q_decoding].
  destruct (N.eqb_spec c 61) as [->|Hc].
  - cbn [N.eqb Pos.eqb]. rewrite decode_escape_spec. destruct r as [|a [|b r]].
    + cbn [bind]. apply (STEP [61] []). cbn in *; lia.
    + cbn [bind]. apply (STEP [61] [a]). cbn in *; lia.
    + cbn [length] in Hn. destruct ((a =? 13) && (b =? 10)).
      * cbn [bind]. apply IH. lia.
      * cbn [bind]. apply STEP. lia.
  - destruct (N.eqb_spec c 95) as [->|Hc2].
    + rewrite vec_set_at. cbn [bind]. apply (STEP [32] r). lia.
    + destruct ((32 <=? c) && (c <=? 126)).
      * apply (STEP [c] r). lia.
      * rewrite put_replacement_at. cbn [bind]. apply (STEP REPLACEMENT r). lia.
Qed.
Lemma decode_header_qp_spec : forall E l, decode_header_qp E l = Ok (q_decoding l).
Proof. intros. unfold decode_header_qp. apply (decode_header_qp_loop_spec E _ [] l). lia. Qed.

(* ---------------- encoder ---------------- *)
Definition hex_digit (v : N) : N := nth (N.to_nat v) (bs "0123456789ABCDEF") 0.
Lemma to_hex_spec : forall E v, v < 16 -> to_hex E v = Ok (hex_digit v).
Proof.
  intros E v Hv. unfold to_hex. destruct (N.leb_spec v 9).
  - rewrite u8_add_ok by lia. f_equal. apply N.eqb_eq.
    refine (below_spec 10 (fun v => 48 + v =? hex_digit v) _ v ltac:(lia)). vm_compute. reflexivity.
  - destruct (N.leb_spec v 15); [|lia]. rewrite u8_add_ok by lia. cbn [bind]. rewrite u8_sub_ok by lia. f_equal.
    assert (HH : (v <=? 9) || (65 + v - 10 =? hex_digit v) = true).
    { refine (below_spec 16 (fun v => (v <=? 9) || (65 + v - 10 =? hex_digit v)) _ v ltac:(lia)). vm_compute. reflexivity. }
    destruct (N.leb_spec v 9); [lia|]. now apply N.eqb_eq.
Qed.
Lemma hex_digit_value : forall v, v < 16 -> hex_value (hex_digit v) = Some v.
Proof.
  intros v Hv. apply opt_eqb_eq. refine (below_spec 16 (fun v => opt_eqb (hex_value (hex_digit v)) (Some v)) _ v Hv).
  vm_compute. reflexivity.
Qed.
Lemma hex_digit_range : forall v, v < 16 -> 33 <= hex_digit v <= 126.
Proof.
  intros v Hv. assert (H : (33 <=? hex_digit v) && (hex_digit v <=? 126) = true).
  { refine (below_spec 16 (fun v => (33 <=? hex_digit v) && (hex_digit v <=? 126)) _ v Hv). vm_compute. reflexivity. }
  lia.
Qed.

Definition blank (c : N) : bool := (c =? 9) || (c =? 32).
Definition not_cr_next (r : bytes) : bool := match r with d :: _ => negb (d =? 13) | [] => false end.

(* the text the encoder writes for the bytes [l], [line] characters being already on the line *)
Fixpoint qp_text (l : bytes) (line : nat) : bytes :=
  match l with
  | [] => []
  | c :: r =>
    let brk := (72 <=? line)%nat in
    (if brk then [61; 13; 10] else []) ++
    let line := if brk then 0%nat else line in
    if litteral_repr_possible c || (blank c && not_cr_next r) then c :: qp_text r (line + 1)
    else match r with
         | d :: r' => if (c =? 13) && (d =? 10) then 13 :: 10 :: qp_text r' 0
                      else 61 :: hex_digit (c / 16) :: hex_digit (c mod 16) :: qp_text r (line + 3)
         | [] => 61 :: hex_digit (c / 16) :: hex_digit (c mod 16) :: qp_text r (line + 3)
         end
  end.

Lemma encode_qp_loop_spec : forall E n d l line, (length l < n)%nat -> wf_bytes l ->
  encode_qp_loop E n (d ++ l) (length d) line = Ok (d ++ qp_text l line).
Proof.
  intros E. induction n as [|n IH]; intros d l line Hn Hwf; [lia|]. cbn [encode_qp_loop].
  rewrite nth_error_at0. destruct l as [|c r]; [cbn; reflexivity|].
  cbn [nth_error]. cbn [length] in Hn. inversion Hwf as [|? ? Hc Hr]; subst. unfold wf_byte in Hc.
  (* the soft line break *)
  match goal with |- bind ?X _ = _ => assert (B : exists d' line',
     X = Ok (d' ++ c :: r, length d', line')
     /\ d ++ qp_text (c :: r) line = d' ++ qp_text (c :: r) line' /\ (72 <=? line' = false)%nat) end.
  { destruct (72 <=? line)%nat eqn:Hl.
    - exists (d ++ [61; 13; 10]), 0%nat. rewrite vec_insert_at. cbn [bind]. rewrite vec_insert_at. cbn [bind].
      rewrite vec_insert_at. cbn [bind]. split; [|split].
      + rewrite <- app_assoc, app_length. reflexivity.
      + cbn [qp_text]. rewrite Hl. rewrite <- app_assoc. reflexivity.
      + reflexivity.
    - exists d, line. auto. }
  destruct B as (d' & line' & -> & -> & Hl). cbn [bind]. clear d line.
  assert (STEP : forall x t k, (length t < n)%nat -> wf_bytes t ->
     encode_qp_loop E n (d' ++ x ++ t) (length d' + length x) k = Ok (d' ++ x ++ qp_text t k)).
  { intros x t k Ht Hw. rewrite app_mid. rewrite <- app_length. rewrite IH by auto. now rewrite <- app_mid. }
  cbn [qp_text]. rewrite Hl. cbn [app].
  replace (match nth_error (d' ++ c :: r) (length d' + 1) with Some c0 => negb (c0 =? 13) | None => false end)
    with (not_cr_next r) by (rewrite nth_error_at; destruct r; reflexivity).
  replace (get_is (d' ++ c :: r) (length d' + 1) 10) with (get_is r 0 10) by (now rewrite get_is_at).
  destruct (litteral_repr_possible c); cbn [orb].
  { apply (STEP [c] r); auto. lia. }
  fold (blank c). destruct (blank c && not_cr_next r).
  { apply (STEP [c] r); auto. lia. }
  assert (ESC :
    (let* (_, data) := vec_remove (d' ++ c :: r) (length d') in
     let* lo := to_hex E (c mod 16) in
     let* data0 := vec_insert data (length d') lo in
     let* d := u8_sub E c (c mod 16) in
     let* hi := to_hex E (d / 16) in
     let* data1 := vec_insert data0 (length d') hi in
     let* data2 := vec_insert data1 (length d') 61 in
     encode_qp_loop E n data2 (length d' + 3) (line' + 3))
    = Ok (d' ++ 61 :: hex_digit (c / 16) :: hex_digit (c mod 16) :: qp_text r (line' + 3))).
  { rewrite vec_remove_at. cbn [bind]. rewrite to_hex_spec by lia. cbn [bind]. rewrite vec_insert_at. cbn [bind].
    rewrite u8_sub_ok by lia. cbn [bind]. rewrite to_hex_spec by lia. cbn [bind]. rewrite vec_insert_at. cbn [bind].
    rewrite vec_insert_at. cbn [bind]. replace ((c - c mod 16) / 16) with (c / 16) by lia.
    apply (STEP [61; hex_digit (c / 16); hex_digit (c mod 16)] r); auto. lia. }
  rewrite ESC. clear ESC. destruct r as [|b r].
  - cbn [get_is nth_error]. unfold get_is. cbn [nth_error]. rewrite andb_false_r. reflexivity.
  - unfold get_is. cbn [nth_error]. destruct ((c =? 13) && (b =? 10)) eqn:H; [|reflexivity].
    apply andb_true_iff in H as [H1 H2]. apply N.eqb_eq in H1, H2. subst. inversion Hr; subst.
    apply (STEP [13; 10] r); auto. cbn in *; lia.
Qed.
Lemma encode_qp_spec : forall E l, wf_bytes l -> encode_qp E l = Ok (qp_text l 0).
Proof. intros. unfold encode_qp. apply (encode_qp_loop_spec E _ [] l); auto. Qed.

(* ---------------- round trip ---------------- *)
Lemma list_ind2 : forall (P : bytes -> Prop),
  P [] -> (forall a, P [a]) -> (forall a b l, P l -> P (b :: l) -> P (a :: b :: l)) -> forall l, P l.
Proof.
  intros P H0 H1 H2 l. enough (P l /\ forall a, P (a :: l)) by tauto.
  induction l as [|x l [IH1 IH2]]; split; auto.
Qed.

Lemma qp_literal : forall c t, litteral_repr_possible c || blank c = true -> qp_decoding (c :: t) = c :: qp_decoding t.
Proof.
  intros c t H. cbn [qp_decoding]. unfold litteral_repr_possible, blank in H.
  replace (c =? 61) with false by lia.
  replace (((33 <=? c) && (c <=? 126)) || (c =? 32) || (c =? 9)) with true by lia. reflexivity.
Qed.
Lemma qp_escaped : forall c t, c < 256 -> qp_decoding (61 :: hex_digit (c / 16) :: hex_digit (c mod 16) :: t) = c :: qp_decoding t.
Proof.
  intros c t H. cbn [qp_decoding].
  replace (61 =? 61) with true by reflexivity.
  pose proof (hex_digit_range (c / 16) ltac:(lia)). replace (hex_digit (c / 16) =? 13) with false by lia. cbn [andb].
  unfold escape. rewrite !hex_digit_value by lia. cbn [app]. f_equal. lia.
Qed.

Lemma qp_text_decoding : forall l, wf_bytes l -> forall line, qp_decoding (qp_text l line) = l.
Proof.
  assert (BR : forall (b : bool) (t : bytes), qp_decoding ((if b then [61; 13; 10] else []) ++ t) = qp_decoding t)
    by (intros [] t; reflexivity).
  intros l. pattern l. apply list_ind2; clear l.
  - reflexivity.
  - intros c H line. inversion H; subst. cbn [qp_text]. rewrite BR. unfold not_cr_next. rewrite andb_false_r, orb_false_r.
    destruct (litteral_repr_possible c) eqn:Hc.
    + rewrite qp_literal by (now rewrite Hc). reflexivity.
    + rewrite qp_escaped by auto. reflexivity.
  - intros c b l IH1 IH2 H line. inversion H as [|? ? Hc Hr]; subst. inversion Hr; subst.
    cbn [qp_text]. rewrite BR. fold (qp_text (b :: l)).
    destruct (litteral_repr_possible c || (blank c && not_cr_next (b :: l))) eqn:Hl.
    + rewrite qp_literal by (destruct (litteral_repr_possible c), (blank c); cbn in *; congruence). f_equal. apply IH2; auto.
    + destruct ((c =? 13) && (b =? 10)) eqn:Hcr.
      * apply andb_true_iff in Hcr as [H1 H2']. apply N.eqb_eq in H1, H2'. subst. cbn [qp_decoding].
        cbn. do 2 f_equal. apply IH1; auto.
      * rewrite qp_escaped by auto. f_equal. apply IH2; auto.
Qed.

Lemma qp_round_trip : forall E l, wf_bytes l -> exists t, encode_qp E l = Ok t /\ decode_qp E t = Ok l.
Proof.
  intros E l H. eexists. split; [now apply encode_qp_spec|]. rewrite decode_qp_spec. now rewrite qp_text_decoding.
Qed.

(* ---------------- shape ---------------- *)
Lemma ends_blank_cons : forall c l, l <> [] -> ends_blank (c :: l) -> ends_blank l.
Proof.
  intros c l Hl (a & b & E & Hb). destruct a as [|x a]; cbn in E; inversion E; subst; [congruence|]. exists a, b. auto.
Qed.
Lemma ends_blank_app : forall x l, l <> [] -> ends_blank (x ++ l) -> ends_blank l.
Proof.
  induction x as [|c x IH]; intros l Hl H; auto. apply IH; auto. eapply ends_blank_cons; eauto.
  intros E. apply app_eq_nil in E. tauto.
Qed.
Lemma ends_blank_nil : ~ ends_blank [].
Proof. intros (a & b & E & _). destruct a; discriminate. Qed.
Lemma ends_blank_last : forall l b, ends_blank (l ++ [b]) -> b = 32 \/ b = 9.
Proof. intros l b (a & c & E & H). apply app_inj_tail in E as [_ ->]. exact H. Qed.

(* head line h: with [line] characters before it *)
Definition good_text (line : nat) (starts : bool) (t : bytes) : Prop :=
  exists h ls, lines_of t = h :: ls /\ Forall qp_char h /\ (length h + line <= 76)%nat /\ ~ ends_blank h
    /\ Forall good_line ls /\ (starts = true -> h <> []).

Lemma good_text_prefix : forall x t line line' s, good_text line' s t ->
  no_cr x -> Forall qp_char x -> x <> [] -> (length x + line <= line')%nat ->
  (ends_blank x -> s = true) -> forall s', good_text line s' (x ++ t).
Proof.
  intros x t line line' s (h & ls & E & H1 & H2 & H3 & H4 & H5) Hx Hc Hne Hlen Hb s'.
  destruct (lines_of_prefix x t Hx) as (h' & t' & E1 & E2). rewrite E in E1. inversion E1; subst h' t'.
  exists (x ++ h), ls. rewrite app_length. repeat split; auto; try lia.
  - apply Forall_app; auto.
  - destruct h as [|c h].
    + rewrite app_nil_r. intros H. apply Hb in H. apply H5 in H. congruence.
    + intros H. apply ends_blank_app in H; [auto|discriminate].
  - intros _ K. apply app_eq_nil in K. tauto.
Qed.
Lemma good_text_break : forall x t line, good_text 0 false t -> no_cr x -> Forall qp_char x -> ~ ends_blank x ->
  (length x + line <= 76)%nat -> forall s, (s = true -> x <> []) -> good_text line s (x ++ CRLF ++ t).
Proof.
  intros x t line (h & ls & E & H1 & H2 & H3 & H4 & H5) Hx Hc Hb Hlen s Hs.
  exists x, (h :: ls). rewrite lines_of_app by auto. rewrite E. repeat split; auto.
  constructor; auto. repeat split; auto. lia.
Qed.

Lemma good_text_weaken : forall t line s, good_text line s t -> good_text line false t.
Proof. intros t line s (h & ls & ? & ? & ? & ? & ? & ?). exists h, ls. repeat split; auto; try discriminate. Qed.

Lemma no_cr_chars : forall x, Forall qp_char x -> no_cr x.
Proof. intros x H. eapply Forall_impl; [|exact H]. unfold qp_char. intros; lia. Qed.

Lemma qp_text_good : forall l, wf_bytes l -> forall line, (line <= 74)%nat -> good_text line (not_cr_next l) (qp_text l line).
Proof.
  intros l. pattern l. apply list_ind2; clear l.
  - intros _ line H. exists [], []. cbn. repeat split; auto; try lia; try discriminate; try apply ends_blank_nil.
  - intros c H line Hline. inversion H as [|? ? Hc _]; subst. unfold wf_byte in Hc.
    assert (G : forall line s, (line <= 71)%nat -> good_text line s
       (if litteral_repr_possible c || (blank c && not_cr_next []) then c :: qp_text [] (line + 1)
        else 61 :: hex_digit (c / 16) :: hex_digit (c mod 16) :: qp_text [] (line + 3))).
    { intros k s Hk. unfold not_cr_next. rewrite andb_false_r, orb_false_r.
      assert (N0 : forall k', (k' <= 76)%nat -> good_text k' false []).
      { intros k' Hk'. exists [], []. cbn. repeat split; auto; try lia; try discriminate; try apply ends_blank_nil. }
      destruct (litteral_repr_possible c) eqn:Hl; unfold litteral_repr_possible in Hl.
      - apply (good_text_prefix [c] [] k (k + 1) false); auto.
        + apply N0. lia.
        + constructor; [lia|constructor].
        + constructor; [unfold qp_char; lia|constructor].
        + discriminate.
        + cbn. lia.
        + intros HB. apply (ends_blank_last []) in HB. lia.
      - pose proof (hex_digit_range (c / 16) ltac:(lia)). pose proof (hex_digit_range (c mod 16) ltac:(lia)).
        assert (QC : Forall qp_char [61; hex_digit (c / 16); hex_digit (c mod 16)]).
        { repeat (apply Forall_cons; [left; lia|]). apply Forall_nil. }
        apply (good_text_prefix [61; hex_digit (c / 16); hex_digit (c mod 16)] [] k (k + 3) false); auto.
        + apply N0. lia.
        + now apply no_cr_chars.
        + discriminate.
        + cbn. lia.
        + intros HB. apply (ends_blank_last [61; hex_digit (c / 16)]) in HB. lia. }
    cbn [qp_text]. destruct (Nat.leb_spec 72 line).
    + apply (good_text_break [61]).
      * eapply good_text_weaken. apply G with (s := false). lia.
      * constructor; [lia|constructor].
      * constructor; [unfold qp_char; lia|constructor].
      * intros HB. apply (ends_blank_last []) in HB. lia.
      * cbn. lia.
      * discriminate.
    + cbn [app]. apply G. lia.
  - intros c b l IH1 IH2 H line Hline. inversion H as [|? ? Hc Hr]; subst. unfold wf_byte in Hc. inversion Hr as [|? ? Hb Hr2]; subst.
    assert (G : forall line, (line <= 71)%nat -> good_text line (not_cr_next (c :: b :: l))
       (if litteral_repr_possible c || (blank c && not_cr_next (b :: l)) then c :: qp_text (b :: l) (line + 1)
        else if (c =? 13) && (b =? 10) then 13 :: 10 :: qp_text l 0
        else 61 :: hex_digit (c / 16) :: hex_digit (c mod 16) :: qp_text (b :: l) (line + 3))).
    { intros k Hk. destruct (litteral_repr_possible c || (blank c && not_cr_next (b :: l))) eqn:Hl.
      - unfold litteral_repr_possible, blank in Hl.
        apply (good_text_prefix [c] _ k (k + 1) (not_cr_next (b :: l))); auto.
        + apply IH2; auto. lia.
        + constructor; [lia|constructor].
        + constructor; [unfold qp_char; lia|constructor].
        + discriminate.
        + cbn [length]. lia.
        + intros HB. apply (ends_blank_last []) in HB. destruct (not_cr_next (b :: l)); auto. rewrite andb_false_r in Hl. lia.
      - destruct ((c =? 13) && (b =? 10)) eqn:Hcr.
        + apply (good_text_break []).
          * eapply good_text_weaken. apply IH1; auto. lia.
          * constructor.
          * constructor.
          * apply ends_blank_nil.
          * cbn. lia.
          * apply andb_true_iff in Hcr as [H1 _]. apply N.eqb_eq in H1. subst. discriminate.
        + pose proof (hex_digit_range (c / 16) ltac:(lia)). pose proof (hex_digit_range (c mod 16) ltac:(lia)).
          assert (QC : Forall qp_char [61; hex_digit (c / 16); hex_digit (c mod 16)]).
          { repeat (apply Forall_cons; [left; lia|]). apply Forall_nil. }
          apply (good_text_prefix [61; hex_digit (c / 16); hex_digit (c mod 16)] _ k (k + 3) (not_cr_next (b :: l))); auto.
          * apply IH2; auto. lia.
          * now apply no_cr_chars.
          * discriminate.
          * cbn [length]. lia.
          * intros HB. apply (ends_blank_last [61; hex_digit (c / 16)]) in HB. lia. }
    cbn [qp_text]. fold (qp_text (b :: l)). destruct (Nat.leb_spec 72 line).
    + apply (good_text_break [61]).
      * eapply good_text_weaken. apply G. lia.
      * constructor; [lia|constructor].
      * constructor; [unfold qp_char; lia|constructor].
      * intros HB. apply (ends_blank_last []) in HB. lia.
      * cbn. lia.
      * discriminate.
    + cbn [app]. apply G. lia.
Qed.

Lemma qp_shape : forall E l, wf_bytes l -> exists t, encode_qp E l = Ok t /\ Forall good_line (lines_of t).
Proof.
  intros E l H. eexists. split; [now apply encode_qp_spec|].
  destruct (qp_text_good l H 0%nat ltac:(lia)) as (h & ls & -> & H1 & H2 & H3 & H4 & _).
  constructor; auto. repeat split; auto. lia.
Qed.

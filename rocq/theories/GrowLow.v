(* C65: a short mail with a huge tree of parts. *)
From Coq Require Import Lia.
From Verif Require Import Base Utf8 CharSets Combinators Whitespace QuotedString Common Time Address Percent Charset MimeFields Fields Message Entity Email Envs
  Rfc5322 Rfc2047 Post CodecSpec RfcFields SoundBase SoundTime TagNoCase PercentProofs ParamProofs SoundFields EmailSpec SoundMessage EmailProofs Steps Complete CompleteFields Forward ForwardText
  ForwardMimeFields ForwardTrace ForwardFields ForwardMessage HeaderFacts MultipartSpec EntitySpec EntityProofs MultipartRound ParamSpec OrderFacts ParamWrite Base64Proofs Utf8Facts Writers MailSpec RangeWrite TreeSpec TreeFacts GrowSpec.
Local Open Scope nat_scope.

(* the headers of each multipart *)
Definition m_type : bytes := bs "Content-Type: multipart/mixed; boundary=a" ++ CRLF.
Definition m_encoding : bytes := bs "Content-Transfer-Encoding: quoted-printable" ++ CRLF.
Definition m_leaf : bytes := bs "Content-Type: image/x; a=a" ++ CRLF.
(* quoted-printable, with the hyphens hidden *)
Definition hide1 (c : byte) : bytes := if (c =? 45)%N then bs "=2D" else if (c =? 61)%N then bs "=3D" else [c].
Definition hide (l : bytes) : bytes := concat (map hide1 l).
Definition wrap (t : bytes) : bytes := [] ++ parts_text (bs "a") [t] ++ closing_delimiter (bs "a") ++ [].
Fixpoint nest (k : nat) (u : bytes) : bytes :=
  match k with
  | 0 => (m_leaf ++ []) ++ CRLF ++ u
  | S k => (m_type ++ m_encoding ++ []) ++ CRLF ++ hide (wrap (nest k u))
  end.
(* what decoding does to bytes that are not allowed *)
Definition grow1 (c : byte) : bytes := if (c <? 127)%N then [c] else REPLACEMENT.
Definition grow (l : bytes) : bytes := concat (map grow1 l).
Lemma grow_app : forall a b, grow (a ++ b) = grow a ++ grow b. Proof. intros. unfold grow. now rewrite map_app, concat_app. Qed.
Lemma hide_app : forall a b, hide (a ++ b) = hide a ++ hide b. Proof. intros. unfold hide. now rewrite map_app, concat_app. Qed.
Lemma grow_hide : forall l, grow (hide l) = hide (grow l).
Proof.
  induction l as [|c l IH]; [reflexivity|]. change (c :: l) with ([c] ++ l). rewrite hide_app, !grow_app, hide_app, IH. f_equal. unfold hide, grow. cbn [map concat]. rewrite !app_nil_r.
  unfold hide1 at 1, grow1 at 2. destruct (N.eqb_spec c 45) as [->|N1]; [reflexivity|]. destruct (N.eqb_spec c 61) as [->|N2]; [reflexivity|]. cbn [map concat]. rewrite app_nil_r. unfold grow1. destruct (c <? 127)%N; [|reflexivity].
  cbn [map concat]. unfold hide1. apply N.eqb_neq in N1, N2. now rewrite N1, N2.
Qed.
(* lines of visible characters, blanks, and bytes that are not ASCII *)
Fixpoint smooth (l : bytes) : bool :=
  match l with
  | [] => true
  | c :: r => if (32 <=? c)%N then smooth r else match r with d :: r' => (c =? 13)%N && (d =? 10)%N && smooth r' | [] => false end
  end.
Lemma smooth_ind : forall P : bytes -> Prop, P [] -> (forall c r, (32 <= c)%N -> smooth r = true -> P r -> P (c :: r)) -> (forall r, smooth r = true -> P r -> P (CRLF ++ r)) -> forall l, smooth l = true -> P l.
Proof.
  intros P H0 H1 H2. assert (G : forall n l, length l <= n -> smooth l = true -> P l); [|intros l; apply (G (length l)); apply le_n].
  induction n as [|n IH]; intros [|c r] L H; auto; [cbn in L; lia|]. cbn [length] in L. cbn [smooth] in H. destruct (N.leb_spec 32 c).
  - apply H1; auto. apply IH; [lia|auto].
  - destruct r as [|d r]; [discriminate|]. apply andb_prop in H as [H H']. apply andb_prop in H as [A B]. apply N.eqb_eq in A, B. subst c d. apply H2; auto. apply IH; [cbn [length] in L; lia|auto].
Qed.
Lemma smooth_app : forall a b, smooth a = true -> smooth b = true -> smooth (a ++ b) = true.
Proof.
  intros a b Ha Hb. revert a Ha. apply smooth_ind; auto.
  intros c r L _ IH. cbn [app smooth]. apply N.leb_le in L. now rewrite L.
Qed.
Lemma smooth_hide : forall l, smooth l = true -> smooth (hide l) = true.
Proof.
  apply smooth_ind; [reflexivity| |intros r _ IH; exact IH]. intros c r L _ IH. change (c :: r) with ([c] ++ r). rewrite hide_app. apply smooth_app; [|exact IH].
  unfold hide, hide1. cbn [map concat]. destruct (c =? 45)%N; [reflexivity|]. destruct (c =? 61)%N; [reflexivity|]. cbn. apply N.leb_le in L. now rewrite L.
Qed.
Lemma decode_hide : forall l, smooth l = true -> qp_decoding (hide l) = grow l.
Proof.
  apply smooth_ind; [reflexivity| |].
  - intros c r L _ IH. change (c :: r) with ([c] ++ r). rewrite hide_app, grow_app, <- IH. generalize (hide r). intros h. unfold hide, grow. cbn [map concat]. rewrite !app_nil_r. unfold hide1, grow1.
    destruct (N.eqb_spec c 45) as [->|N1]; [reflexivity|]. destruct (N.eqb_spec c 61) as [->|N2]; [reflexivity|]. cbn [app qp_decoding]. apply N.eqb_neq in N2 as X. rewrite X.
    destruct (N.ltb_spec c 127).
    + assert (Y : (((33 <=? c) && (c <=? 126)) || (c =? 32) || (c =? 9))%N = true). { destruct (N.leb_spec 33 c), (N.leb_spec c 126), (N.eqb_spec c 32); cbn; auto; lia. } rewrite Y. reflexivity.
    + assert (Y : (((33 <=? c) && (c <=? 126)) || (c =? 32) || (c =? 9))%N = false). { destruct (N.leb_spec c 126), (N.eqb_spec c 32), (N.eqb_spec c 9); try lia; now rewrite Bool.andb_false_r. } rewrite Y.
      assert (Z : (c =? 13)%N = false) by (apply N.eqb_neq; lia). destruct h; [reflexivity|]. rewrite Z. reflexivity.
  - intros r _ IH. rewrite hide_app, grow_app, <- IH. generalize (hide r). reflexivity.
Qed.
Lemma grow_wrap : forall t, grow (wrap t) = wrap (grow t).
Proof. intros t. unfold wrap, parts_text. cbn [map concat app]. rewrite !app_nil_r, !grow_app. reflexivity. Qed.
Lemma grow_nest : forall k u, grow (nest k u) = nest k (grow u).
Proof. induction k as [|k IH]; intros u; cbn [nest]; rewrite !grow_app; [reflexivity|]. rewrite grow_hide, grow_wrap, IH. reflexivity. Qed.
Lemma smooth_wrap : forall t, smooth t = true -> smooth (wrap t) = true.
Proof. intros t H. unfold wrap, parts_text. cbn [map concat app]. rewrite !app_nil_r. apply smooth_app; [apply smooth_app; [reflexivity|exact H]|reflexivity]. Qed.
Lemma smooth_nest : forall k u, smooth u = true -> smooth (nest k u) = true.
Proof. induction k as [|k IH]; intros u H; cbn [nest]; (apply smooth_app; [reflexivity|]); (apply smooth_app; [reflexivity|]); auto. apply smooth_hide, smooth_wrap, IH, H. Qed.
Lemma smooth_grow : forall u, smooth u = true -> smooth (grow u) = true.
Proof.
  apply smooth_ind; [reflexivity| |intros r _ IH; exact IH]. intros c r L _ IH. change (c :: r) with ([c] ++ r). rewrite grow_app. apply smooth_app; [|exact IH].
  unfold grow, grow1. cbn [map concat]. destruct (c <? 127)%N; [|reflexivity]. cbn. apply N.leb_le in L. now rewrite L.
Qed.
(* no two hyphens in a row *)
Fixpoint single (l : bytes) : bool := match l with [] => true | c :: r => match r with d :: _ => negb ((c =? 45)%N && (d =? 45)%N) | [] => true end && single r end.
Lemma single_two : forall x y, single (x ++ [45; 45]%N ++ y) = false.
Proof. induction x as [|c x IH]; intros y; [reflexivity|]. specialize (IH y). cbn [app single] in *. rewrite IH. apply Bool.andb_false_r. Qed.
Lemma single_app : forall a b, single a = true -> ~ In 45%N b -> single (a ++ b) = true.
Proof.
  intros a b Ha Hb. induction a as [|c a IH].
  - cbn [app]. induction b as [|c b IH]; [reflexivity|]. cbn [single]. rewrite IH by (intros X; apply Hb; now right). destruct b as [|d b]; [reflexivity|].
    assert (X : (c =? 45)%N = false) by (apply N.eqb_neq; intros ->; apply Hb; now left). now rewrite X.
  - cbn [app single] in *. apply andb_prop in Ha as [H1 H2]. rewrite (IH H2). destruct a as [|d a]; [|cbn [app]; now rewrite H1]. cbn [app]. destruct b as [|d b]; [reflexivity|].
    assert (X : (d =? 45)%N = false) by (apply N.eqb_neq; intros ->; apply Hb; now left). rewrite X. now rewrite Bool.andb_false_r.
Qed.
Lemma hide_no_hyphen : forall l, ~ In 45%N (hide l).
Proof.
  intros l H. unfold hide in H. apply in_concat in H as (x & H & X). apply in_map_iff in H as (c & <- & _). unfold hide1 in X. destruct (N.eqb_spec c 45); [cbn in X; intuition discriminate|].
  destruct (c =? 61)%N; [cbn in X; intuition discriminate|]. destruct X as [X|[]]. congruence.
Qed.
Lemma nest_clean : forall k u, ~ In 45%N u -> clean (bs "a") (nest k u).
Proof.
  intros k u Hu (x & y & X). assert (Y : single (CRLF ++ nest k u) = true).
  { destruct k as [|k]; cbn [nest]; rewrite !(app_assoc _ CRLF), (app_assoc CRLF); apply single_app; try reflexivity; auto. apply hide_no_hyphen. }
  rewrite X in Y. unfold dash_boundary in Y. rewrite (app_assoc x) in Y. rewrite <- !app_assoc in Y. rewrite (app_assoc x CRLF) in Y. change (bs "--" ++ bs "a" ++ y) with ([45; 45]%N ++ bs "a" ++ y) in Y.
  rewrite single_two in Y. discriminate.
Qed.
Lemma grow_no_hyphen : forall u, ~ In 45%N u -> ~ In 45%N (grow u).
Proof. intros u H X. unfold grow in X. apply in_concat in X as (x & X & Y). apply in_map_iff in X as (c & <- & C). unfold grow1 in Y. destruct (c <? 127)%N; [destruct Y as [->|[]]; auto|]. cbn in Y. intuition discriminate. Qed.

(* ---- the headers ---- *)
Section Nest.
Variables (E : env) (HE : env_ok E).
Lemma type_text : forall k t n, In (k, t) mime_types -> lower_token n -> forall p, chars1 (fun x => mime_token_char x /\ x <> 42%N) p -> map fold_case p = p ->
  exists l, rfc_header "Content-Type" (clear_content_type E) (bs "Content-Type" ++ [58]%N ++ (bs " " ++ k ++ bs "/" ++ n ++ (bs "; " ++ p ++ bs "=" ++ bs "a") ++ []) ++ CRLF) (t, n, l) /\ map_get l p = Some (bs "a").
Proof.
  intros k t n Hk [Hs Hl] p Hn Hf. set (raw := [(p, None, false, bs "a")] : list param).
  assert (Hv : mime_token (bs "a")) by (split; [discriminate|constructor; [unfold mime_token_char; cbn; split; [lia|cbn; intuition discriminate]|constructor]]).
  assert (Hw : many_of written_param (bs "; " ++ p ++ bs "=" ++ bs "a") raw).
  { rewrite <- (app_nil_r (bs "; " ++ p ++ bs "=" ++ bs "a")). constructor; [|constructor]. rewrite <- Hf at 2. apply (written_param_intro p None false p (bs "a") (bs "a")); auto; [now split|discriminate|now constructor]. }
  assert (Hm : forall k, stands_for (most_segments E) raw k (last_of (values_of raw k))) by (intros k'; apply stands_plain; reflexivity).
  destruct (written_params_ok _ raw Hw) as [Hc Hr]. destruct (stands_params E raw _ (ok_hash E HE) Hr Hm) as (l & Hp & Hg).
  exists l. split.
  - constructor; [reflexivity|]. rewrite <- Hl at 2. econstructor; eauto; [now apply (clear_known _ _ k k t)|now apply (stands_limit E raw _ Hm)|apply no_inline].
  - rewrite Hg. unfold raw, values_of. cbn [map concat]. rewrite bytes_eqb_refl. reflexivity.
Qed.
Lemma mixed : lower_token (bs "mixed") /\ lower_token (bs "x") /\ chars1 (fun x => mime_token_char x /\ x <> 42%N) (bs "boundary") /\ chars1 (fun x => mime_token_char x /\ x <> 42%N) (bs "a").
Proof.
  split; [|split; [|split]]; try (split; [|reflexivity]); (split; [discriminate|]); repeat (apply Forall_cons; [first [split; [|discriminate]|idtac]; unfold mime_token_char; cbn; split; [lia|cbn; intuition discriminate]|]); constructor.
Qed.
Lemma type_header : exists l, rfc_header "Content-Type" (clear_content_type E) m_type (CMultipart, bs "mixed", l) /\ map_get l (bs "boundary") = Some (bs "a").
Proof. destruct mixed as (M & _ & B & _). exact (type_text (bs "multipart") CMultipart (bs "mixed") ltac:(right; now left) M (bs "boundary") B eq_refl). Qed.
Lemma leaf_header : exists l, rfc_header "Content-Type" (clear_content_type E) m_leaf (CImage, bs "x", l).
Proof. destruct mixed as (_ & M & _ & B). destruct (type_text (bs "image") CImage (bs "x") ltac:(cbn; tauto) M (bs "a") B eq_refl) as (l & H & _). exists l. exact H. Qed.
Lemma encoding_header : rfc_header "Content-Transfer-Encoding" clear_encoding m_encoding QuotedPrintableEnc.
Proof.
  change m_encoding with (bs "Content-Transfer-Encoding" ++ [58]%N ++ (bs " " ++ bs "quoted-printable" ++ []) ++ CRLF). constructor; [reflexivity|]. constructor; [auto| |apply no_inline].
  apply (clear_known _ _ (bs "quoted-printable") (bs "quoted-printable") QuotedPrintableEnc); [cbn; tauto|reflexivity].
Qed.
Fixpoint grown_tree (k : nat) (u : bytes) : tree := match k with 0 => Data CImage (bs "x") u | S k => Parts (bs "mixed") [grown_tree k (grow u)] end.
Lemma wrap_content : forall k u l, map_get l (bs "boundary") = Some (bs "a") -> smooth u = true -> ~ In 45%N u -> all_parts E [nest k (grow u)] [grown_tree k (grow u)] ->
  content E (CMultipart, bs "mixed", l) QuotedPrintableEnc (hide (wrap (nest k u))) (Parts (bs "mixed") [grown_tree k (grow u)]).
Proof.
  intros k u l Hl Hs Hu HA. apply content_parts with (boundary := bs "a") (text := wrap (nest k (grow u))) (parts := [nest k (grow u)]); auto.
  - cbn. intuition discriminate.
  - rewrite <- grow_nest, <- grow_wrap, <- decode_hide by (apply smooth_wrap, smooth_nest, Hs). constructor.
  - constructor; [|constructor]. apply nest_clean, grow_no_hyphen, Hu.
  - unfold wrap. apply multipart_preamble.
    + intros (x & y & X). apply (f_equal (@length N)) in X. rewrite !app_length in X. cbn in X. lia.
    + intros (x & y & X). apply (f_equal (@length N)) in X. rewrite !app_length in X. cbn in X. lia.
Qed.
Lemma nest_parts : forall k u, smooth u = true -> ~ In 45%N u -> all_parts E [nest k u] [grown_tree k u].
Proof.
  induction k as [|k IH]; intros u Hs Hu; cbn [nest grown_tree].
  - destruct leaf_header as [l H]. apply all_parts_cons with (hs := [HType CImage (bs "x") l]) (b := u); [|now right| |constructor].
    + constructor; [now constructor|constructor].
    + apply content_data; [discriminate|discriminate|constructor].
  - destruct type_header as (l & H & Hl). apply all_parts_cons with (hs := [HType CMultipart (bs "mixed") l; HEncoding QuotedPrintableEnc]) (b := hide (wrap (nest k u))); [|now right| |constructor].
    + constructor; [now constructor|]. constructor; [constructor; exact encoding_header|constructor].
    + cbn [last_some]. apply wrap_content; auto. apply IH; [now apply smooth_grow|now apply grow_no_hyphen].
Qed.
Definition box : mailbox_t := {| m_name := None; m_address := {| a_local_part := bs "a"; a_domain := bs "b" |} |}.
Definition when : date_time_t := {| dt_day_name := None; dt_date := {| d_day := 1; d_month := January; d_year := 2020 |}; dt_time := {| tz_time := {| t_hour := 0; t_minute := 0; t_second := 0 |}; tz_zone := {| z_sign := true; z_hour_offset := 0; z_minute_offset := 0 |} |} |}%N.
Lemma mailed : f_mime E = true -> exists c, forall b l t, map_get l (bs "boundary") = Some (bs "a") -> rfc_header "Content-Type" (clear_content_type E) m_type (CMultipart, bs "mixed", l) ->
  content E (CMultipart, bs "mixed", l) QuotedPrintableEnc b t ->
  exists e r, parse E (c ++ CRLF ++ b) = Ok e /\ mime_entity e = Some r /\ shows E r t.
Proof.
  intros HF. assert (Hd : date_in_range when) by (unfold date_in_range; vm_compute; repeat split; discriminate). assert (Hm : writable_mailbox box) by (split; [split|exact I]; (apply Forall_cons; [|apply Forall_nil]); [left; unfold rfc_VCHAR; cbn; lia|right; cbn; lia]).
  destruct (date_text when Hd) as [cd Hcd]. destruct (mailboxes_text (f_mime E) (encoded E) (f_compatibility_fixes E) [box]) as [cf Hcf]; [split; [discriminate|constructor; [exact Hm|constructor]]|].
  set (fs0 := (if f_date E then [FDate when] else []) ++ (if f_from E then [FFrom [box]] else [])).
  assert (HH : exists c, many_of (clear_field E) c fs0).
  { apply many_text with (W := fun f => exists c, clear_field E c f); [auto|]. unfold fs0. apply Forall_app. split.
    - destruct (f_date E) eqn:F; constructor; [|constructor]. eexists. apply clear_date; [exact F|]. apply header_text. exact Hcd.
    - destruct (f_from E) eqn:F; constructor; [|constructor]. eexists. apply clear_from; [exact F|]. apply header_text. exact Hcf. }
  destruct HH as [c0 Hc0]. exists (c0 ++ m_type ++ m_encoding). intros b l t Hl H1 H3. set (fs := fs0 ++ [FContentType CMultipart (bs "mixed") l; FContentTransferEncoding QuotedPrintableEnc]).
  assert (Hc : many_of (clear_field E) (c0 ++ m_type ++ m_encoding) fs).
  { apply many_of_app; [exact Hc0|]. rewrite <- (app_nil_r m_encoding). constructor; [now constructor|]. constructor; [constructor; [exact HF|exact encoding_header]|constructor]. }
  assert (HM : clear_message E ([] ++ (c0 ++ m_type ++ m_encoding) ++ CRLF ++ b) fs (Some b)) by (apply (clear_message_intro E [] [] _ fs); auto; constructor).
  assert (O1 : only is_content_type fs = Some (CMultipart, bs "mixed", l)) by (unfold fs, fs0, only, pick; destruct (f_date E), (f_from E); reflexivity).
  assert (O2 : only is_cte fs = Some QuotedPrintableEnc) by (unfold fs, fs0, only, pick; destruct (f_date E), (f_from E); reflexivity).
  destruct (message_accepted E _ fs (Some b) HE HM) as (fs' & e & F & P & Q).
  { destruct (trees_read E HE) as [T _]. destruct (T _ _ _ _ H3) as (v & Hv & _). constructor.
    - unfold fs, fs0, pick. destruct (f_date E), (f_from E); cbn; repeat (constructor; [cbn; intuition discriminate|]); constructor.
    - intros X. unfold fs, fs0. rewrite X. unfold pick. destruct (f_date E); discriminate.
    - intros X. unfold fs, fs0. rewrite X. discriminate.
    - intros X. right. exists box. unfold fs, fs0. rewrite (ok_sender E HE X). unfold pick. destruct (f_date E); reflexivity.
    - intros _ t' [= <-]. rewrite O2. eauto.
    - congruence. }
  destruct (mail_tree E _ fs (Some b) e t HE HF HM) as (r & Hr & Hs); [rewrite O1, O2; exact H3|exact P|].
  exists e, r. split; [exact P|]. now split.
Qed.
End Nest.

(* ---- how long the text is, and how large the tree ---- *)
Definition marked (l : bytes) : nat := length (filter (fun c => (c =? 45) || (c =? 61))%N l).
Lemma marked_app : forall a b, marked (a ++ b) = marked a + marked b. Proof. intros. unfold marked. now rewrite filter_app, app_length. Qed.
Lemma hide_marked : forall l, marked (hide l) = marked l /\ length (hide l) = length l + 2 * marked l.
Proof.
  induction l as [|c l [I1 I2]]; [split; reflexivity|]. change (c :: l) with ([c] ++ l). rewrite hide_app, !marked_app, !app_length, I1, I2. unfold hide. cbn [map concat]. rewrite app_nil_r. unfold hide1, marked. cbn [filter].
  destruct (N.eqb_spec c 45) as [->|N1]; [cbn; unfold bytes, byte in *; lia|]. destruct (N.eqb_spec c 61) as [->|N2]; [cbn; unfold bytes, byte in *; lia|]. cbn [orb filter length]. apply N.eqb_neq in N1, N2. rewrite N1, N2. cbn. unfold bytes, byte in *. lia.
Qed.
Lemma wrap_size : forall t, length (wrap t) = length t + 16 /\ marked (wrap t) = marked t + 6.
Proof. intros t. unfold wrap, parts_text. cbn [map concat app]. rewrite !app_nil_r, !app_length, !marked_app. cbn. unfold bytes, byte in *. lia. Qed.
Lemma nest_size : forall k u, marked (nest k u) = marked u + 2 + 11 * k /\ length (nest k u) <= length u + 30 + k * (200 + 2 * marked u + 22 * k).
Proof.
  induction k as [|k IH]; intros u; cbn [nest].
  - rewrite !app_length, !marked_app. cbn. unfold bytes, byte in *. lia.
  - destruct (IH u) as [I1 I2]. destruct (wrap_size (nest k u)) as [W1 W2]. destruct (hide_marked (wrap (nest k u))) as [M1 M2]. rewrite !app_length, !marked_app, M1, M2, W1, W2, I1.
    change (length m_type) with 43. change (length m_encoding) with 45. change (marked m_type) with 2. change (marked m_encoding) with 3. change (marked CRLF) with 0. change (length CRLF) with 2. cbn [length]. change (marked []) with 0. unfold bytes, byte in *. split; [lia|nia].
Qed.
Lemma grow_bad : forall n, grow (concat (repeat REPLACEMENT n)) = concat (repeat REPLACEMENT (3 * n)).
Proof.
  induction n as [|n IH]; [reflexivity|]. cbn [repeat concat]. rewrite grow_app, IH. replace (3 * S n) with (3 + 3 * n) by lia. rewrite repeat_app, concat_app. reflexivity.
Qed.
Lemma grown_leaf : forall k n, leaf_bytes (grown_tree k (concat (repeat REPLACEMENT n))) = 3 ^ k * (3 * n).
Proof.
  induction k as [|k IH]; intros n; cbn [grown_tree leaf_bytes].
  - induction n as [|n I]; [reflexivity|]. cbn [repeat concat]. rewrite app_length, I. cbn. lia.
  - rewrite grow_bad. cbn [map list_sum fold_right]. rewrite IH. cbn [Nat.pow]. lia.
Qed.
Theorem short_mail_large_tree : forall E, env_ok E -> f_mime E = true -> exists K, forall d, exists D e r t,
  parse E D = Ok e /\ length D <= K * (S d * S d) /\ mime_entity e = Some r /\ shows E r t /\ 3 ^ d <= leaf_bytes t.
Proof.
  intros E HE HF. destruct (mailed E HE HF) as [c Hc]. destruct (type_header E HE) as (l & H1 & Hl). exists (length c + 500). intros d.
  set (u := REPLACEMENT). assert (Hs : smooth u = true) by reflexivity. assert (Hu : ~ In 45%N u) by (cbn; intuition discriminate).
  destruct (Hc (hide (wrap (nest d u))) l (Parts (bs "mixed") [grown_tree d (grow u)]) Hl H1) as (e & r & P & R & T).
  { apply wrap_content; auto. apply (nest_parts E HE); [now apply smooth_grow|now apply grow_no_hyphen]. }
  exists (c ++ CRLF ++ hide (wrap (nest d u))), e, r, (Parts (bs "mixed") [grown_tree d (grow u)]). split; [exact P|]. split; [|split; [exact R|split; [exact T|]]].
  - destruct (hide_marked (wrap (nest d u))) as [_ M]. destruct (wrap_size (nest d u)) as [W1 W2]. destruct (nest_size d u) as [N1 N2]. rewrite !app_length, M, W1, W2, N1. change (marked u) with 0 in *. change (length u) with 3 in *. change (length CRLF) with 2. unfold bytes, byte in *. nia.
  - cbn [leaf_bytes map list_sum fold_right]. change u with (concat (repeat REPLACEMENT 1)). rewrite grow_bad, grown_leaf. pose proof (Nat.pow_nonzero 3 d ltac:(discriminate)). lia.
Qed.

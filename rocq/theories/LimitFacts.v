(* C03, C04: inputs that exhaust a counter or the stack. *)
From Coq Require Import Lia ZifyBool ZifyNat ZifyN Permutation.
From Verif Require Import Base Utf8 CharSets Combinators Whitespace Common Time Address Percent MimeFields Fields Message Email Envs EnvOk
  Rfc5322 Rfc2047 Post CodecSpec PercentProofs RfcFields SoundBase TagNoCase ParamProofs Local EmailSpec Steps Complete CompleteFields Forward ForwardText ForwardAddr
  ForwardMime ForwardParams ForwardParts ForwardMimeFields ForwardTrace ForwardFields ForwardMessage HeaderFacts Writers WriteFacts WriteAddr WriteRest ParamSpec ParamWrite.
Local Open Scope N_scope.

(* ---- C03: the counter of the segments of a parameter is a u8 ---- *)
Definition overflow {A} : res A := Crash (Panic "attempt to add with overflow").
Lemma next_segments_panic : forall E n values idx value, debug E = true -> (length values < n)%nat -> NoDup (map fst values) -> idx < 256 ->
  (forall k, idx <= k -> k < 256 -> iget values k <> None) -> next_segments E n values None idx value = overflow.
Proof.
  intros E n. induction n as [|n IH]; intros values idx value D Hn Hd Hi Hv; [lia|]. cbn [next_segments].
  pose proof (imap_remove_spec values idx Hd) as R. destruct (imap_remove values idx) as [[[e nv] values']|]; [|exfalso; apply (Hv idx); auto; lia].
  destruct R as (R1 & R2 & R3 & R4 & R5).
  match goal with |- bind ?x _ = _ => replace x with (@Ok bytes (value ++ nv)) by (now destruct e) end. cbn [bind]. unfold u8_add.
  destruct (N.ltb_spec (idx + 1) 256) as [Hlt|Hge]; [|rewrite D; reflexivity]. cbn [bind]. apply IH; auto; try lia.
  intros k H1 H2. rewrite R4. destruct (N.eqb_spec k idx); [lia|]. apply Hv; lia.
Qed.
Lemma join_segments_panic : forall E values s, debug E = true -> NoDup (map fst values) -> iget values 0 = Some (false, s) ->
  (forall k, k < 256 -> iget values k <> None) -> join_segments E values = overflow.
Proof.
  intros E values s D Hd H0 Hv. unfold join_segments. pose proof (imap_remove_spec values 0 Hd) as R.
  destruct (imap_remove values 0) as [[[e v] values']|]; [|congruence]. destruct R as (R1 & R2 & R3 & R4 & R5). rewrite R1 in H0. injection H0 as -> ->.
  cbn [first_segment bind]. rewrite next_segments_panic; auto; try lia. intros k H1 H2. rewrite R4. destruct (N.eqb_spec k 0); [lia|]. now apply Hv.
Qed.
Lemma join_all_panic : forall E complex n s, debug E = true -> complex_ok complex ->
  iget (default_map (map_get complex n)) 0 = Some (false, s) -> (forall k, k < 256 -> iget (default_map (map_get complex n)) k <> None) ->
  (forall n', n' <> n -> iget (default_map (map_get complex n')) 0 = None) ->
  forall names params, In n names -> join_all E names complex params = overflow.
Proof.
  intros E complex n s D Hc H0 Hv Ho. induction names as [|n0 names IH]; intros params Hin; [destruct Hin|]. cbn [join_all].
  destruct (list_eq_dec N.eq_dec n0 n) as [->|Hne].
  - destruct (map_get complex n) as [values|] eqn:G; [|discriminate]. cbn in *. destruct Hc as [_ Hc]. destruct (Hc n values G) as [V1 V2].
    rewrite (join_segments_panic E values s); auto.
  - assert (Hin' : In n names) by (destruct Hin; [congruence|auto]). destruct (map_get complex n0) as [values|] eqn:G; [|auto].
    destruct Hc as [Hc1 Hc]. destruct (Hc n0 values G) as [V1 V2]. pose proof (Ho n0 Hne) as Hz. rewrite G in Hz. cbn in Hz. unfold join_segments.
    pose proof (imap_remove_spec values 0 V1) as R. destruct (imap_remove values 0) as [[v values']|]; [destruct R; congruence|]. cbn [bind]. auto.
Qed.
(* segments 0 to 255 of one parameter, and no others *)
Definition overlong (raw : list param) : Prop :=
  exists n s, segment raw n 0 = Some (false, s) /\ (forall k, k < 256 -> segment raw n k <> None) /\ forall n', n' <> n -> segment raw n' 0 = None.
Lemma map_get_key : forall A (l : list (bytes * A)) n v, map_get l n = Some v -> In n (map fst l).
Proof.
  intros A l n v. induction l as [|[k x] l IH]; cbn [map_get]; [discriminate|]. destruct (bytes_eqb n k) eqn:B; intros H; [apply bytes_eqb_eq in B; subst; now left|right; auto].
Qed.
Lemma collect_panic : forall E raw, debug E = true -> (forall x, Permutation (hash_order E x) x) -> Forall param_ok raw -> overlong raw -> collect_parameters E raw = overflow.
Proof.
  intros E raw D Hh Hl (n & s & H0 & Hv & Ho). unfold collect_parameters. pose proof (split_spec raw raw [] [] [] eq_refl Hl) as S.
  destruct (split_parameters raw [] []) as [plain complex]. destruct S as (S1 & S2 & S3); try (intros; reflexivity).
  { split; [constructor|]. intros m x H. discriminate. }
  eapply join_all_panic; eauto.
  - now rewrite S3, H0.
  - intros k Hk. rewrite S3. auto.
  - intros n' Hn. rewrite S3. auto.
  - apply Permutation_in with (l := map fst complex); [apply Permutation_sym, Hh|]. rewrite <- S3 in H0. destruct (map_get complex n) eqn:G; [|discriminate]. eapply map_get_key; eauto.
Qed.
Lemma content_type_panic : forall E n c t s ps raw i, debug E = true -> an_order (hash_order E) -> same_nocase n (bs "Content-Type") ->
  clear_keyword mime_types CUnknown c t -> mime_token s -> many_of written_param ps raw -> overlong raw -> no_blank i ->
  content_type E (n ++ bs ": " ++ c ++ bs "/" ++ s ++ ps ++ CRLF ++ i) = overflow.
Proof.
  intros E n c t s ps raw i D Hh Hn Hk Hs Hps Ho Hi. destruct (written_params_ok ps raw Hps) as [Hc Hraw]. unfold content_type.
  change (bs ": ") with ([58] ++ bs " "). rewrite <- !app_assoc. use_name "Content-Type"%string Hn.
  destruct (ocfws_token (bs " ") c (bs "/" ++ s ++ ps ++ CRLF ++ i) (blanks_oCFWS _ blank1)) as [o ->]; [eapply mime_type_token; eauto|]. cbn [bind].
  rewrite (mime_type_forward E c t) by (auto; reflexivity). cbn [bind]. rewrite tag_app. cbn [bind].
  destruct (items_end param param_core) with (cs := ps) (l := raw) (x := @nil byte) (i := i) as [He _].
  { intros x a []. eexists. reflexivity. }
  { eapply many_of_impl; [exact Hc|]. intros x a [w0 w' n0 a0 x0 e c0 v Hw0 Hw' Hn0 Hc0]. constructor; auto. now constructor. }
  { exact no_inline. }
  { exact (no_blank_ends i Hi). }
  change ([] ++ CRLF ++ i) with (CRLF ++ i) in He. rewrite (token_forward s) by auto. cbn [bind].
  destruct (params_forward ps raw [] i Hc no_inline (no_blank_ends i Hi)) as (x' & Hx' & Hp). change ([] ++ CRLF ++ i) with (CRLF ++ i) in Hp. rewrite Hp. cbn [bind].
  rewrite collect_panic by auto. reflexivity.
Qed.

Lemma cfg_crash : forall A b (p : parser A) l i k, b = true -> p i = Crash k -> match_parsers (cfg b p ++ l) i = Crash k.
Proof. intros A b p l i k -> H. cbn [cfg app match_parsers]. now rewrite H. Qed.
Definition overlong_header (E : env) (d : bytes) : Prop :=
  exists n c t s ps raw i, d = n ++ bs ": " ++ c ++ bs "/" ++ s ++ ps ++ CRLF ++ i /\ same_nocase n (bs "Content-Type") /\
    clear_keyword mime_types CUnknown c t /\ mime_token s /\ many_of written_param ps raw /\ overlong raw /\ no_blank i.
Lemma overlong_named : forall E d, overlong_header E d -> exists c i, d = c ++ i /\ rfc_header "Content-Type" (fun _ (_ : unit) => True) c tt.
Proof.
  intros E d (n & c & t & s & ps & raw & i & -> & Hn & _). exists (n ++ [58] ++ (bs " " ++ c ++ bs "/" ++ s ++ ps) ++ CRLF), i. split.
  - now rewrite <- !app_assoc.
  - now constructor.
Qed.
Lemma any_field_panic : forall E d, debug E = true -> f_mime E = true -> an_order (hash_order E) -> overlong_header E d -> any_field E d = overflow.
Proof.
  intros E d D M Hh Hd. destruct (overlong_named E d Hd) as (c & i & -> & H). unfold any_field, field_parsers. skip_others H.
  apply cfg_crash; auto. unfold pmap. destruct Hd as (n & k & t & s & ps & raw & j & -> & H1 & H2 & H3 & H4 & H5 & H6).
  rewrite (content_type_panic E n k t s ps raw j) by auto. reflexivity.
Qed.
Lemma headers_panic : forall E c l d, debug E = true -> f_mime E = true -> an_order (hash_order E) -> many_of (clear_field E) c l -> overlong_header E d ->
  forall n, (length (c ++ d) < n)%nat -> many_fuel n (any_field E) (c ++ d) = overflow.
Proof.
  intros E c l d D M Hh H Hd. assert (Sd : starts_header d). { destruct (overlong_named E d Hd) as (x & i & -> & Hx). hstarts Hx. }
  induction H as [|c a cs l Hc H IH]; intros n Hn; (destruct n as [|n]; [lia|]); cbn [many_fuel].
  - cbn [app]. rewrite any_field_panic by auto. reflexivity.
  - rewrite <- app_assoc in *. destruct (any_field_forward E c a (cs ++ d) Hh Hc) as (f' & Hf & _).
    { apply starts_header_wsp. destruct H as [|c1 a1 cs1 l1 H1 _]; [exact Sd|]. rewrite <- app_assoc. eapply clear_field_starts; eauto. }
    rewrite Hf. cbn [attempt]. rewrite IH; [reflexivity|]. pose proof (starts_header_nonempty c (cs ++ d)) as L. specialize (L (clear_field_starts E c a _ Hc) (fun i => clear_field_starts E c a i Hc)). lia.
Qed.
Lemma overlong_no_trace : forall E d, overlong_header E d -> no_trace d.
Proof. intros E d Hd. destruct (overlong_named E d Hd) as (c & i & -> & H). intros name Hn. cbn in Hn. repeat (destruct Hn as [<-|Hn]; [other H|]). destruct Hn. Qed.
Theorem parse_panic : forall E c1 t c2 l d, debug E = true -> f_mime E = true -> an_order (hash_order E) ->
  clear_blocks E c1 t -> (f_trace E = true \/ t = []) -> many_of (clear_field E) c2 l -> overlong_header E d -> parse E (c1 ++ c2 ++ d) = overflow.
Proof.
  intros E c1 t c2 l d D M Hh H1 Ht H2 Hd. assert (Sd : starts_header d). { destruct (overlong_named E d Hd) as (x & i & -> & Hx). hstarts Hx. }
  unfold parse, parse_message, fields. assert (P : many (any_field E) (c2 ++ d) = overflow) by (eapply headers_panic; eauto).
  destruct (f_trace E) eqn:T.
  - rewrite (many_steps _ _ _ _ _ (blocks_steps E c1 t H1 (c2 ++ d)
      ltac:(apply starts_header_wsp; destruct H2 as [|c3 a3 cs3 l3 H3 _]; [exact Sd|rewrite <- app_assoc; eapply clear_field_starts; eauto])
      ltac:(destruct H2 as [|c3 a3 cs3 l3 H3 _]; [now apply (overlong_no_trace E)|rewrite <- app_assoc; eapply clear_field_no_trace; eauto]))). cbn [bind]. rewrite P. reflexivity.
  - destruct Ht as [Ht| ->]; [discriminate|]. inversion H1; subst. cbn [app bind]. rewrite P. reflexivity.
Qed.

(* such headers: any name, any 256 values *)
Definition overlong_raw (name : bytes) (k : N) (vs : list bytes) : list param := map (fun '(k, v) => (name, Some k, false, v)) (numbered k vs).
Fixpoint overlong_text (name : bytes) (k : N) (vs : list bytes) : bytes :=
  match vs with
  | [] => []
  | v :: r => (bs "; " ++ (name ++ bs "*" ++ decimal 3 k) ++ bs "=" ++ v) ++ overlong_text name (k + 1) r
  end.
Lemma overlong_written : forall name vs k, chars1 (fun x => mime_token_char x /\ x <> 42) name -> map fold_case name = name -> Forall mime_token vs ->
  k + N.of_nat (length vs) <= 256 -> many_of written_param (overlong_text name k vs) (overlong_raw name k vs).
Proof.
  intros name vs k Hn Hf Hv. revert k. induction Hv as [|v vs Hv Hvs IH]; intros k Hk; [constructor|]. cbn [overlong_text]. unfold overlong_raw. cbn [numbered map].
  cbn [length] in Hk. constructor; [|apply IH; lia]. pose proof (written_param_intro name (Some k) false (name ++ bs "*" ++ decimal 3 k) v v) as W. rewrite Hf in W. apply W; auto.
  - exists (decimal 3 k). split; [split; [discriminate|apply decimal_digits]|]. split; [apply number_decimal; change (10 ^ N.of_nat 3) with 1000; lia|]. now rewrite app_nil_r.
  - intros k' [= <-]. lia.
  - now constructor.
Qed.
Lemma overlong_segments : forall name vs k, segments_of (overlong_raw name k vs) name = numbered k (map (fun v => (false, v)) vs).
Proof.
  intros name vs. induction vs as [|v vs IH]; intros k; [reflexivity|]. unfold overlong_raw, segments_of in *. cbn [numbered map concat].
  assert (B : bytes_eqb name name = true) by now apply bytes_eqb_eq. rewrite B. cbn [app]. now rewrite IH.
Qed.
Lemma overlong_others : forall name vs k n, n <> name -> segments_of (overlong_raw name k vs) n = [].
Proof.
  intros name vs. induction vs as [|v vs IH]; intros k n Hn; [reflexivity|]. unfold overlong_raw, segments_of in *. cbn [numbered map concat].
  destruct (bytes_eqb n name) eqn:B; [apply bytes_eqb_eq in B; congruence|]. cbn [app]. now apply IH.
Qed.
Lemma overlong_is : forall name vs, length vs = 256%nat -> overlong (overlong_raw name 0 vs).
Proof.
  intros name vs Hl. assert (C := cut_lookup (overlong_raw name 0 vs) name (map (fun v => (false, v)) vs)). rewrite overlong_segments in C. specialize (C (Permutation_refl _)).
  destruct vs as [|v vs]; [discriminate|]. exists name, v. split; [rewrite C; reflexivity|]. split.
  - intros k Hk. rewrite C. apply nth_error_Some. rewrite map_length, Hl. lia.
  - intros n' Hn. rewrite segment_lookup, overlong_others by auto. reflexivity.
Qed.
Theorem panic_exists : forall E, env_ok E -> debug E = true -> f_mime E = true -> exists data, parse E data = Crash (Panic "attempt to add with overflow").
Proof.
  intros E HE D M. exists ([] ++ [] ++ bs "Content-Type" ++ bs ": " ++ bs "text" ++ bs "/" ++ bs "plain" ++ overlong_text (bs "n") 0 (repeat (bs "x") 256) ++ CRLF ++ []).
  apply (parse_panic E [] [] [] [] _ D M (ok_hash E HE)); [apply clear_blocks_nil|now right|apply many_nil|].
  exists (bs "Content-Type"), (bs "text"), CText, (bs "plain"), (overlong_text (bs "n") 0 (repeat (bs "x") 256)), (overlong_raw (bs "n") 0 (repeat (bs "x") 256)), [].
  split; [reflexivity|]. split; [reflexivity|]. split; [apply (clear_known _ _ (bs "text")); [left; reflexivity|reflexivity]|].
  split. { split; [discriminate|]. apply Forall_forall. intros x Hx. vm_compute in Hx. unfold mime_token_char. cbn. lia. }
  split. { apply overlong_written; [| |apply Forall_forall; intros x Hx; apply repeat_spec in Hx; subst x|rewrite repeat_length; lia].
    - split; [discriminate|]. apply Forall_forall. intros x Hx. vm_compute in Hx. unfold mime_token_char. cbn. lia.
    - reflexivity.
    - split; [discriminate|]. apply Forall_forall. intros x Hx. vm_compute in Hx. unfold mime_token_char. cbn. lia. }
  split; [apply overlong_is, repeat_length|]. intros c r H. discriminate.
Qed.

(* ---- C04: comments are read by recursion ---- *)
Lemma deep_comment : forall d k x, (d < k)%nat -> comment_d d (repeat 40 k ++ x) = Crash OutOfFuel.
Proof.
  induction d as [|d IH]; intros [|k] x H; try lia; [reflexivity|]. destruct k as [|k]; [lia|]. cbn [comment_d]. cbn [repeat app].
  change (40 :: 40 :: repeat 40 k ++ x) with (bs "(" ++ 40 :: repeat 40 k ++ x). rewrite tag_app. cbn [bind]. unfold ignore_many, many. cbn [length many_fuel].
  assert (P : pair_p (optional fws) (match_parsers [take_while1 is_ctext; quoted_pair; comment_d d]) (40 :: repeat 40 k ++ x) = Crash OutOfFuel).
  { unfold pair_p. replace (optional fws (40 :: repeat 40 k ++ x)) with (@Ok (bytes * option bytes) (40 :: repeat 40 k ++ x, None)) by reflexivity. cbn [bind].
    cbn [match_parsers]. replace (take_while1 is_ctext (40 :: repeat 40 k ++ x)) with (@Err (bytes * bytes) (Unknown "Expected at least one character matching")) by reflexivity. cbn [attempt].
    assert (Q : exists e, quoted_pair (40 :: repeat 40 k ++ x) = Err e) by (eexists; reflexivity). destruct Q as [e ->]. cbn [attempt].
    change (comment_d d (40 :: repeat 40 k ++ x)) with (comment_d d (repeat 40 (S k) ++ x)). rewrite IH by lia. reflexivity. }
  rewrite P. reflexivity.
Qed.

(* one more than the number of opening parentheses is enough *)
Definition opens (i : bytes) : nat := count_occ N.eq_dec i 40.
Lemma opens_app : forall a b, opens (a ++ b) = (opens a + opens b)%nat.
Proof. intros. apply count_occ_app. Qed.
Lemma enough_depth : forall d d' i, (opens i < d)%nat -> (length i < d')%nat -> comment_d d i = comment_d d' i.
Proof.
  induction d as [|d IH]; intros [|d'] i Ho Hl; try lia. cbn [comment_d].
  pose proof (post_tag never (bs "(") "TAG ERROR: A comment must start with a `(`." i) as T. destruct (tag _ _ i) as [[r u]|e|c]; cbn [bind]; auto.
  destruct T as (a & -> & ->). rewrite app_length in Hl. rewrite opens_app in Ho. change (length (bs "(")) with 1%nat in Hl. change (opens (bs "(")) with 1%nat in Ho.
  assert (P : forall j, (opens j < d)%nat -> (length j < d')%nat -> pair_p (optional fws) (match_parsers [take_while1 is_ctext; quoted_pair; comment_d d]) j =
    pair_p (optional fws) (match_parsers [take_while1 is_ctext; quoted_pair; comment_d d']) j).
  { intros j Hj Hj'. unfold pair_p. pose proof (sound_ofws never j) as O. destruct (optional fws j) as [[y o]|e|c]; cbn [bind]; auto. destruct O as (w & -> & _).
    rewrite opens_app in Hj. rewrite app_length in Hj'. cbn [match_parsers]. now rewrite (IH d' y) by lia. }
  assert (M : forall n j, (opens j < d)%nat -> (length j < d')%nat -> many_fuel n (pair_p (optional fws) (match_parsers [take_while1 is_ctext; quoted_pair; comment_d d])) j =
    many_fuel n (pair_p (optional fws) (match_parsers [take_while1 is_ctext; quoted_pair; comment_d d'])) j).
  { induction n as [|n IHn]; intros j Hj Hj'; [reflexivity|]. cbn [many_fuel]. rewrite P by auto. pose proof (sound_fws_ccontent never d' j Hj') as S.
    destruct (pair_p _ _ j) as [[y a]|e|c]; cbn [attempt]; auto. destruct S as (w & -> & _). rewrite opens_app in Hj. rewrite app_length in Hj'. now rewrite IHn by lia. }
  unfold ignore_many, many. now rewrite M by lia.
Qed.
Lemma comment_depth : forall i, comment_d (S (opens i)) i = comment i.
Proof. intros i. apply enough_depth; lia. Qed.

(* k + 1 comments inside each other *)
Definition nested (k : nat) : bytes := repeat 40 (S k) ++ repeat 41 (S k).
Lemma nested_comment : forall k, rfc_comment (nested k).
Proof.
  induction k as [|k IH].
  - apply (comment_intro []). eapply cbody_end. constructor.
  - replace (nested (S k)) with ([40] ++ nested k ++ [41]).
    + apply comment_intro. rewrite <- (app_nil_r (nested k)). eapply (cbody_cons []); [constructor|apply ccontent_comment, IH|eapply cbody_end; constructor].
    + unfold nested. change (repeat 41 (S (S k))) with (41 :: repeat 41 (S k)). rewrite (repeat_cons (S k) 41). change (repeat 40 (S (S k))) with ([40] ++ repeat 40 (S k)). now rewrite <- !app_assoc.
Qed.
Definition deep_mail (k : nat) : bytes :=
  bs "From: " ++ nested k ++ bs "a@b.c" ++ CRLF ++ bs "Date: 1 Jan 2020 10:00 +0000" ++ CRLF.
Definition someone : mailbox_t := {| m_name := None; m_address := {| a_local_part := bs "a"; a_domain := bs "b.c" |} |}.
Definition some_time : date_time_t :=
  {| dt_day_name := None; dt_date := {| d_day := 1; d_month := January; d_year := 2020 |};
     dt_time := {| tz_time := {| t_hour := 10; t_minute := 0; t_second := 0 |}; tz_zone := {| z_sign := true; z_hour_offset := 0; z_minute_offset := 0 |} |} |}.
Lemma some_time_written : written_date (bs "1 Jan 2020 10:00 +0000") some_time.
Proof.
  change (bs "1 Jan 2020 10:00 +0000") with ([] ++ decimal 1 1 ++ bs " " ++ bs "Jan" ++ bs " " ++ decimal 4 2020 ++ bs " " ++ decimal 2 10 ++ bs ":" ++ decimal 2 0 ++ [] ++
                  bs " " ++ bs (if true then "+" else "-") ++ decimal 2 0 ++ decimal 2 0).
  apply (written_date_intro [] None 1 1 (bs "Jan") (bs "Jan")); try constructor; auto; try reflexivity; vm_compute; auto.
Qed.
Lemma some_time_value : rfc_date_value (bs " 1 Jan 2020 10:00 +0000") some_time.
Proof. apply (date_written (bs " ")); [exact blank1|exact some_time_written|unfold date_in_range; cbn; lia]. Qed.
Lemma some_time_text : rfc_header "Date" (tidily rfc_date_value) (bs "Date: 1 Jan 2020 10:00 +0000" ++ CRLF) some_time.
Proof.
  change (bs "Date: 1 Jan 2020 10:00 +0000" ++ CRLF) with (bs "Date" ++ [58] ++ (bs " " ++ bs "1 Jan 2020 10:00 +0000") ++ CRLF). constructor; [reflexivity|].
  split; [exact some_time_value|apply ink_tidy, ink_app; eapply date_ink; exact some_time_written].
Qed.
Lemma deep_mail_from : forall mime compat EW k, tidily (clear_mailbox_list mime compat EW) (bs " " ++ nested k ++ bs "a@b.c") [someone].
Proof.
  intros mime compat EW k. split.
  - unfold clear_mailbox_list. apply comma_one. apply clear_plain. change (bs "a@b.c") with (bs "a" ++ [64] ++ bs "b.c").
    rewrite !app_assoc. rewrite <- (app_assoc _ [64]). apply clear_dot_atom.
    + rewrite <- (app_nil_r (bs "a")), app_assoc, <- app_assoc. apply dot_atom_intro; [|apply dot_text_compat|constructor].
      * apply oCFWS_some. rewrite <- (app_nil_r (bs " " ++ nested k)). eapply CFWS_comments; [|constructor]. eapply comments_one; [apply blanks_oFWS, blank1|apply nested_comment].
      * apply (dot_atom_text_intro false (bs "a") []); [|constructor]. split; [discriminate|]. apply Forall_forall. intros x Hx. vm_compute in Hx. unfold rfc_atext, rfc_ALPHA, rfc_DIGIT. cbn [In]. lia.
    + intros _ t H. discriminate.
    + apply domain_written. constructor. apply (dot_atom_text_intro false (bs "b") (bs ".c")).
      * split; [discriminate|]. apply Forall_forall. intros x Hx. vm_compute in Hx. unfold rfc_atext, rfc_ALPHA, rfc_DIGIT. cbn [In]. lia.
      * change (bs ".c") with ([46] ++ bs "c" ++ []). apply dot_tail_cons; [|now right|constructor]. apply Forall_forall. intros x Hx. vm_compute in Hx. unfold rfc_atext, rfc_ALPHA, rfc_DIGIT. cbn [In]. lia.
  - apply ink_tidy. rewrite app_assoc. apply ink_app. change (bs "a@b.c") with (bs "a@b." ++ [99]). apply ink_one. unfold rfc_WSP. lia.
Qed.
Theorem deep_accepted : forall E k, env_ok E -> f_from E = true -> f_date E = true -> exists e, parse E (deep_mail k) = Ok e /\ from e = [someone] /\ date_of e = Some some_time.
Proof.
  intros E k HE HF HD.
  assert (C : clear_message E (deep_mail k) ([] ++ [FFrom [someone]; FDate some_time]) None).
  { replace (deep_mail k) with ([] ++ ((bs "From" ++ [58] ++ (bs " " ++ nested k ++ bs "a@b.c") ++ CRLF) ++ (bs "Date: 1 Jan 2020 10:00 +0000" ++ CRLF) ++ []) ++ []).
    - apply clear_message_intro; [constructor|now right| |constructor]. apply many_cons; [|apply many_cons; [|constructor]].
      + apply clear_from; auto. constructor; [reflexivity|]. apply deep_mail_from.
      + apply clear_date; auto. exact some_time_text.
    - unfold deep_mail. change (bs "From: ") with (bs "From" ++ [58] ++ bs " "). rewrite !app_nil_r, <- !app_assoc. reflexivity. }
  destruct (message_accepted E _ _ _ HE C) as (fs & e & HS & HP & HO).
  - constructor; cbn; try congruence.
    + repeat (constructor; [cbn; intuition discriminate|]). constructor.
    + intros _. right. exists someone. reflexivity.
  - exists e. split; auto. apply Forall2_app_inv_l in HS as (l1 & l2 & H1 & H2 & ->). inversion H1; subst. inversion H2 as [|? f1 ? l3 F1 H3]; subst. inversion H3 as [|? f2 ? l4 F2 H4]; subst. inversion H4; subst.
    inversion F1; subst. inversion F2; subst. pose proof (of_from _ _ _ _ HO) as A. pose proof (of_date _ _ _ _ HO) as B. rewrite HF in A. rewrite HD in B. cbn in A, B. destruct B as [B _]. split; congruence.
Qed.
(* for any stack there is an accepted mail whose comment does not fit in it *)
Theorem no_depth_bound : forall E d, env_ok E -> f_from E = true -> f_date E = true ->
  exists data e v, parse E data = Ok e /\ data = bs "From: " ++ v /\ comment_d d v = Crash OutOfFuel /\ exists r, comment v = Ok (r, []).
Proof.
  intros E d HE HF HD. destruct (deep_accepted E d HE HF HD) as (e & HP & _). exists (deep_mail d), e, (nested d ++ bs "a@b.c" ++ CRLF ++ bs "Date: 1 Jan 2020 10:00 +0000" ++ CRLF).
  split; auto. split; [reflexivity|]. split.
  - unfold nested. rewrite <- app_assoc. apply deep_comment. lia.
  - eexists. unfold comment. apply (proj1 comments_forward); [apply nested_comment|]. rewrite app_length. lia.
Qed.

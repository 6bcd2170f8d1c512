(* C71: mails whose date is in an obsolete form, or before 1990, are refused. *)
From Coq Require Import Lia.
From Verif Require Import Base Utf8 CharSets Time Address MimeFields Fields Message Entity Email Envs Rfc5322 Rfc2047 Post CodecSpec RfcFields SoundFields EmailSpec SoundMessage EmailProofs MessageFacts Steps
  Complete CompleteFields Forward ForwardText ForwardFields ForwardMessage HeaderFacts LocalSpec Local LocalFacts RecaseFacts Writers WriteFacts LineSpec LineFacts KeptFacts ShownSpec ShownFacts ShownWriters ObsoleteSpec.
Local Open Scope N_scope.

(* ---- the grammar has a sign and a recent year ---- *)
Lemma date_signed : forall c d, rfc_date_time c d -> ~ unsigned c.
Proof.
  intros c d [c0 n c1 d' c2 t c3 z c4 _ _ _ Z _] [P M]. destruct Z as [w v s x1 h x2 m _ _ _]. destruct s; [apply P|apply M]; do 3 (apply in_or_app; right); apply in_or_app; left; apply in_or_app; right; now left.
Qed.
Lemma fws_first : forall w v, rfc_FWS w v -> exists x r, w = x :: r /\ blank x.
Proof.
  intros w v [u [N H]|w1 w2 H1 [N H2]].
  - destruct u as [|x r]; [congruence|]. inversion H; subst. exists x, r. split; [reflexivity|now left].
  - destruct w1 as [|x r]; [exists 13, (10 :: w2); split; [reflexivity|right; now left]|]. inversion H1; subst. exists x, (r ++ CRLF ++ w2). split; [reflexivity|now left].
Qed.
Lemma wsp_last : forall w, chars1 rfc_WSP w -> exists r x, w = r ++ [x] /\ blank x.
Proof.
  intros w [N H]. destruct (exists_last N) as (r & x & ->). exists r, x. split; [reflexivity|]. apply Forall_app in H as [_ H]. inversion H; subst. now left.
Qed.
Lemma fws_last : forall w v, rfc_FWS w v -> exists r x, w = r ++ [x] /\ blank x.
Proof.
  intros w v [u H|w1 w2 H1 H2]; [now apply wsp_last|]. apply wsp_last in H2 as (r & x & -> & Hx). exists (w1 ++ CRLF ++ r), x. split; [now rewrite <- !app_assoc|exact Hx].
Qed.
Lemma date_year : forall c d, rfc_date_time c d -> 1990 <= d_year (dt_date d) -> exists a w y w' b, c = a ++ [w] ++ y ++ [w'] ++ b /\ blank w /\ blank w' /\ recent_year y.
Proof.
  intros c d [c0 n c1 d' c2 t c3 z c4 _ D _ _ _] Y. cbn [dt_date] in Y. destruct D as [w0 v0 x1 dd w1 v1 x2 m w2 v2 y yy w3 v3 _ _ _ _ F2 L Dy -> F3]. cbn [d_year] in Y.
  apply fws_last in F2 as (r2 & w & -> & Hw). apply fws_first in F3 as (w' & r3 & -> & Hw'). exists (c0 ++ w0 ++ x1 ++ w1 ++ x2 ++ r2), w, y, w', (r3 ++ c2 ++ c3 ++ c4).
  split; [rewrite <- !app_assoc; reflexivity|]. split; [exact Hw|]. split; [exact Hw'|]. split; [exact L|]. now split.
Qed.
Lemma digit_not_blank : forall y, chars rfc_DIGIT y -> Forall (fun c => ~ blank c) y.
Proof. intros y H. eapply Forall_impl; [|exact H]. unfold rfc_DIGIT, blank, rfc_WSP. intros c. lia. Qed.
(* a text without blanks before a blank is the first word *)
Lemma first_word : forall (x : bytes) w t y w' b, Forall (fun c => ~ blank c) x -> Forall (fun c => ~ blank c) y -> blank w -> blank w' -> x ++ [w] ++ t = y ++ [w'] ++ b -> x = y /\ t = b.
Proof.
  induction x as [|a x IH]; intros w t y w' b Hx Hy Hw Hw' H; destruct y as [|a' y]; cbn in H; injection H as H1 H2; subst.
  - auto.
  - inversion Hy; subst. contradiction.
  - inversion Hx; subst. contradiction.
  - inversion Hx; inversion Hy; subst. destruct (IH w t y w' b) as [-> ->]; auto.
Qed.
Lemma yearless_first : forall c, yearless c -> forall y w' b, c = y ++ [w'] ++ b -> blank w' -> ~ recent_year y.
Proof.
  intros c [x [Hx _]|x w t [Hx Nx] Hw _] y w' b E Hw' R.
  - subst x. rewrite !Forall_app in Hx. destruct Hx as (_ & Hx & _). inversion Hx; subst. contradiction.
  - apply first_word in E as [-> _]; auto. apply digit_not_blank, R.
Qed.
Lemma yearless_inner : forall c, yearless c -> forall a w y w' b, c = a ++ [w] ++ y ++ [w'] ++ b -> blank w -> blank w' -> ~ recent_year y.
Proof.
  induction 1 as [x [Hx _]|x w0 t [Hx Nx] Hw0 Ht IH]; intros a w y w' b E Hw Hw' R.
  - subst x. rewrite !Forall_app in Hx. destruct Hx as (_ & Hx & _). inversion Hx; subst. contradiction.
  - revert a E. clear Nx. induction Hx as [|u x Hu Hx IHx]; intros a E.
    + destruct a as [|u' a]; cbn [app] in E; injection E as E1 E2.
      * eapply (yearless_first t Ht y w' b); eauto.
      * eapply (IH a w y w' b); eauto.
    + destruct a as [|u' a]; cbn [app] in E; injection E as E1 E2; subst; [contradiction|]. eapply (IHx a); exact E2.
Qed.
Lemma undated_not : forall c d, undated c -> ~ rfc_date_value c d.
Proof.
  intros c d [U|U] [D R]; [exact (date_signed c d D U)|]. destruct R as (_ & [Y _] & _). destruct (date_year c d D Y) as (a & w & y & w' & b & E & Hw & Hw' & Ry). exact (yearless_inner c U a w y w' b E Hw Hw' Ry).
Qed.
(* with more text at the end *)
Lemma unsigned_app : forall c b, unsigned (c ++ b) -> unsigned c.
Proof. intros c b [P M]. split; intros H; [apply P|apply M]; apply in_or_app; now left. Qed.
Lemma undated_prefix : forall c d x y, undated c -> rfc_date_value x d -> c ++ CRLF = x ++ CRLF ++ y -> False.
Proof.
  intros c d x y [U|U] [D R] E.
  - apply (date_signed x d D). assert (I : forall z, In z x -> In z c \/ z = 13 \/ z = 10). { intros z Hz. assert (Q : In z (c ++ CRLF)) by (unfold bytes, byte in *; rewrite E; apply in_or_app; now left). apply in_app_or in Q as [Q|Q]; [auto|]. cbn in Q. lia. }
    destruct U as [P M]. split; intros H; apply I in H as [H|H]; try contradiction; lia.
  - destruct R as (_ & [Y _] & _). destruct (date_year x d D Y) as (a & w & v & w' & b & -> & Hw & Hw' & Ry). rewrite <- !app_assoc in E.
    (* the year is followed by a blank, and the CRLF of the header is not that blank *)
    assert (T : yearless (c ++ CRLF)).
    { clear - U. induction U as [x Hx|x w t Hx Hw Ht IH].
      - apply (yearless_more x 13 [10]); auto; [right; now left|]. apply (yearless_more [] 10 []); [split; [constructor|intros [L _]; cbn in L; lia]|right; now right|]. apply yearless_last. split; [constructor|intros [L _]; cbn in L; lia].
      - rewrite <- !app_assoc. now apply yearless_more. }
    exact (yearless_inner _ T a w v w' _ E Hw Hw' Ry).
Qed.

(* ---- the header is not recognised ---- *)
Definition dateless_names : list string :=
  ["From"; "Sender"; "Reply-To"; "To"; "Cc"; "Bcc"; "Message-ID"; "In-Reply-To"; "References"; "Subject"; "Comments"; "Keywords"; "MIME-Version"; "Content-Type";
   "Content-Transfer-Encoding"; "Content-ID"; "Content-Description"; "Content-Disposition"; "Return-Path"; "Received"; "Resent-Date"; "Resent-From"; "Resent-Sender";
   "Resent-To"; "Resent-Cc"; "Resent-Bcc"; "Resent-Message-ID"]%string.
Lemma structured_date : forall E x, structured_line E x -> (exists d, rfc_header "Date" rfc_date_value x d) \/
  exists name n r, In name dateless_names /\ x = n ++ [58] ++ r /\ same_nocase n (bs name).
Proof.
  intros E x H. assert (G : forall A name (V : bytes -> A -> Prop) x v y, rfc_header name V x v -> In name dateless_names -> exists name n r, In name dateless_names /\ x ++ y = n ++ [58] ++ r /\ same_nocase n (bs name)).
  { intros A name V z v y Hh Hi. apply header_named in Hh as (n & r & -> & Hn). exists name, n, (r ++ y). now rewrite <- !app_assoc. }
  assert (G' : forall A name (V : bytes -> A -> Prop) x v, rfc_header name V x v -> In name dateless_names -> exists name n r, In name dateless_names /\ x = n ++ [58] ++ r /\ same_nocase n (bs name)).
  { intros A name V z v Hh Hi. rewrite <- (app_nil_r z). eapply G; eauto. }
  destruct H as [f H U|v _ H|v _ H|v _ H].
  - destruct H; try (right; eapply G'; [eassumption|unfold dateless_names; cbn; tauto]); [left; eauto| |discriminate].
    right. destruct H0 as [|c1 p H0].
    + destruct H2 as [|z a zs l0 H2 _]; [congruence|]. cbn [app]. rewrite <- app_assoc. eapply G; [exact H2|]. unfold dateless_names; cbn; tauto.
    + eapply G; [exact H0|]. unfold dateless_names; cbn; tauto.
  - right. eapply G'; [eassumption|unfold dateless_names; cbn; tauto].
  - right. eapply G'; [eassumption|unfold dateless_names; cbn; tauto].
  - right. destruct H; eapply G'; try eassumption; unfold dateless_names; cbn; tauto.
Qed.
Theorem date_malformed : forall E n c, same_nocase n (bs "Date") -> undated c -> malformed E (n ++ bs ":" ++ c ++ CRLF).
Proof.
  intros E n c Hn Hc x y Hx Hs. change (bs ":") with [58] in Hx. assert (Nc : ~ In 58 n) by (eapply fold_nocolon; [exact Hn|no_colon]). apply structured_date in Hs as [[d H]|(name & m & r & Hi & -> & Hm)].
  - destruct H as [m c' d Hm Hd]. rewrite <- !app_assoc in Hx. cbn [app] in Hx. apply colon_unique in Hx as [-> Hx]; auto; [|eapply fold_nocolon; [exact Hm|no_colon]]. exact (undated_prefix c d c' y Hc Hd Hx).
  - rewrite <- app_assoc in Hx. cbn [app] in Hx.
    assert (Nm : ~ In 58 m). { apply (fold_nocolon m (bs name) Hm). unfold dateless_names in Hi. cbn [In] in Hi. repeat destruct Hi as [<-|Hi]; try no_colon. contradiction. }
    apply colon_unique in Hx as [-> _]; auto. revert Hm. unfold dateless_names in Hi. cbn [In] in Hi. repeat destruct Hi as [<-|Hi]; try (eapply nocase_differs; [exact Hn|reflexivity]). contradiction.
Qed.

(* ---- the two forms are undated ---- *)
Definition plain (c : byte) : Prop := c <> 43 /\ c <> 45.
Lemma plain_unsigned : forall c, Forall plain c -> unsigned c.
Proof. intros c H. split; intros I; apply (proj1 (Forall_forall _ _) H) in I; destruct I; congruence. Qed.
Lemma fold_alpha : forall n c, same_nocase n c -> Forall rfc_ALPHA n -> Forall rfc_ALPHA c.
Proof.
  intros n c H A. unfold same_nocase in H. revert c H. induction A as [|x n Hx A IH]; intros [|y c] H; try discriminate; constructor; injection H as H1 H2; [|now apply IH].
  clear - H1 Hx. unfold rfc_ALPHA, fold_case in *. destruct (N.leb_spec 65 x), (N.leb_spec x 90), (N.leb_spec 65 y), (N.leb_spec y 90); cbn [andb] in H1; lia.
Qed.
Lemma table_alpha : forall A (table : list (bytes * A)) c a, Forall (fun p => Forall rfc_ALPHA (fst p) /\ fst p <> []) table -> rfc_name table c a -> Forall rfc_ALPHA c /\ c <> [].
Proof.
  intros A table c a T [n c' a' I S]. apply (proj1 (Forall_forall _ _) T) in I as [I N]. split; [exact (fold_alpha _ _ S I)|]. intros ->. destruct n; [now apply N|discriminate S].
Qed.
Definition alphab (l : bytes) : bool := negb (bytes_eqb l []) && forallb (fun c => (65 <=? c) && (c <=? 90) || (97 <=? c) && (c <=? 122)) l.
Lemma alphab_ok : forall A (table : list (bytes * A)), forallb (fun p => alphab (fst p)) table = true -> Forall (fun p => Forall rfc_ALPHA (fst p) /\ fst p <> []) table.
Proof.
  intros A table H. apply Forall_forall. intros p I. apply (proj1 (forallb_forall _ _) H) in I. apply andb_prop in I as [I1 I2]. split.
  - apply Forall_forall. intros c Hc. apply (proj1 (forallb_forall _ _) I2) in Hc. unfold rfc_ALPHA. destruct (N.leb_spec 65 c), (N.leb_spec c 90), (N.leb_spec 97 c), (N.leb_spec c 122); try discriminate Hc; lia.
  - destruct p as [l a]. cbn [fst] in *. intros ->. discriminate I1.
Qed.
Lemma day_alpha : forall c d, rfc_name rfc_day_names c d -> Forall rfc_ALPHA c /\ c <> [].
Proof. intros c d. apply table_alpha, alphab_ok. vm_compute. reflexivity. Qed.
Lemma month_alpha : forall c d, rfc_name rfc_month_names c d -> Forall rfc_ALPHA c /\ c <> [].
Proof. intros c d. apply table_alpha, alphab_ok. vm_compute. reflexivity. Qed.
Lemma alpha_plain : forall c, Forall rfc_ALPHA c -> Forall plain c.
Proof. intros c H. eapply Forall_impl; [|exact H]. unfold rfc_ALPHA, plain. lia. Qed.
Lemma digits_plain : forall c, Forall rfc_DIGIT c -> Forall plain c.
Proof. intros c H. eapply Forall_impl; [|exact H]. unfold rfc_DIGIT, plain. lia. Qed.
Lemma wsp_plain : forall c, Forall rfc_WSP c -> Forall plain c.
Proof. intros c H. eapply Forall_impl; [|exact H]. unfold rfc_WSP, plain. lia. Qed.
Lemma fws_plain : forall w v, rfc_FWS w v -> Forall plain w.
Proof. intros w v [u [_ H]|w1 w2 H1 [_ H2]]; [now apply wsp_plain|]. rewrite !Forall_app. split; [now apply wsp_plain|]. split; [repeat constructor; cbn; lia|now apply wsp_plain]. Qed.
Lemma ofws_plain : forall w v, rfc_oFWS w v -> Forall plain w.
Proof. intros w v [|c x H]; [constructor|exact (fws_plain _ _ H)]. Qed.
Lemma one_plain : forall c : byte, c <> 43 -> c <> 45 -> Forall plain [c].
Proof. intros c H1 H2. constructor; [now split|constructor]. Qed.
Theorem named_unsigned : forall c, named_zone c -> unsigned c.
Proof.
  intros c [c0 n c1 d c2 t w v z D0 D1 D2 W [_ Z]]. apply plain_unsigned. rewrite !Forall_app. split; [|split; [|split; [|split]]].
  - destruct D0 as [|w0 v0 x dd F N]; [constructor|]. rewrite !Forall_app. split; [exact (ofws_plain _ _ F)|]. split; [apply alpha_plain, (day_alpha _ _ N)|apply one_plain; discriminate].
  - destruct D1 as [w0 v0 x1 dd w1 v1 x2 m w2 v2 y yy w3 v3 F0 (_ & X1 & _) F1 N F2 _ Y _ F3]. rewrite !Forall_app.
    split; [exact (ofws_plain _ _ F0)|]. split; [now apply digits_plain|]. split; [exact (fws_plain _ _ F1)|]. split; [apply alpha_plain, (month_alpha _ _ N)|]. split; [exact (fws_plain _ _ F2)|]. split; [now apply digits_plain|exact (fws_plain _ _ F3)].
  - destruct D2 as [x1 h x2 m (_ & X1 & _) (_ & X2 & _)|x1 h x2 m x3 s (_ & X1 & _) (_ & X2 & _) (_ & X3 & _)]; rewrite !Forall_app.
    + split; [now apply digits_plain|]. split; [apply one_plain; discriminate|now apply digits_plain].
    + split; [now apply digits_plain|]. split; [apply one_plain; discriminate|]. split; [now apply digits_plain|]. split; [apply one_plain; discriminate|now apply digits_plain].
  - exact (fws_plain _ _ W).
  - now apply alpha_plain.
Qed.
Lemma words_yearless : forall ws, Forall other_word ws -> yearless (concat (map (fun x => bs " " ++ x) ws)).
Proof.
  assert (E0 : other_word []) by (split; [constructor|intros [L _]; cbn in L; lia]).
  assert (G : forall ws x, other_word x -> Forall other_word ws -> yearless (x ++ concat (map (fun x => bs " " ++ x) ws))).
  { induction ws as [|y ws IH]; intros x Hx H; cbn [map concat]; [rewrite app_nil_r; now apply yearless_last|]. inversion H; subst. rewrite <- app_assoc. apply yearless_more; auto. left. now left. }
  intros ws H. exact (G ws [] E0 H).
Qed.
Lemma other_of : forall x c, Forall (fun c => ~ blank c) x -> In c x -> ~ rfc_DIGIT c -> other_word x.
Proof. intros x c B I N. split; [exact B|]. intros (_ & D & _). apply N. exact (proj1 (Forall_forall _ _) D c I). Qed.
Lemma alpha_not_blank : forall y, Forall rfc_ALPHA y -> Forall (fun c => ~ blank c) y.
Proof. intros y H. eapply Forall_impl; [|exact H]. unfold rfc_ALPHA, blank, rfc_WSP. intros c. lia. Qed.
Lemma one_not_blank : forall c : byte, 33 <= c -> Forall (fun c => ~ blank c) [c].
Proof. intros c H. constructor; [|constructor]. unfold blank, rfc_WSP. lia. Qed.
Theorem early_yearless : forall c, early_year c -> yearless c.
Proof.
  intros c [names d dv m mv y t tv s zh h zm mi HN (D1 & D2 & _) HM [_ HY] HE HT (_ & Z1 & _) (_ & Z2 & _)]. apply words_yearless. apply Forall_app. split.
  - destruct HN as [->|(n & day & N & ->)]; constructor; [|constructor]. apply day_alpha in N as [N _]. apply (other_of _ 44); [apply Forall_app; split; [now apply alpha_not_blank|apply one_not_blank; vm_compute; discriminate]|apply in_or_app; right; now left|unfold rfc_DIGIT; lia].
  - constructor; [split; [now apply digit_not_blank|intros [L _]; unfold bytes, byte in *; lia]|]. constructor; [|constructor; [|constructor; [|constructor; [|constructor]]]].
    + apply month_alpha in HM as [A N]. destruct m as [|x m]; [congruence|]. apply (other_of _ x); [now apply alpha_not_blank|now left|]. inversion A; subst. unfold rfc_ALPHA, rfc_DIGIT in *. lia.
    + split; [now apply digit_not_blank|]. intros (L & _ & R). unfold bytes, byte in *. destruct HE; lia.
    + apply (other_of _ 58); [|destruct HT; apply in_or_app; right; now left|unfold rfc_DIGIT; lia]. destruct HT as [x1 h' x2 m' (_ & X1 & _) (_ & X2 & _)|x1 h' x2 m' x3 s' (_ & X1 & _) (_ & X2 & _) (_ & X3 & _)]; rewrite !Forall_app.
      * split; [now apply digit_not_blank|]. split; [apply one_not_blank; vm_compute; discriminate|now apply digit_not_blank].
      * split; [now apply digit_not_blank|]. split; [apply one_not_blank; vm_compute; discriminate|]. split; [now apply digit_not_blank|]. split; [apply one_not_blank; vm_compute; discriminate|now apply digit_not_blank].
    + apply (other_of _ (if s then 43 else 45)); [rewrite !Forall_app; split; [destruct s; apply one_not_blank; vm_compute; discriminate|split; now apply digit_not_blank]|apply in_or_app; left; destruct s; now left|destruct s; unfold rfc_DIGIT; lia].
Qed.

(* ---- the mail ---- *)
Lemma malformed_any : forall E n c v i, env_ok E -> debug E = false \/ f_mime E = false -> chars1 rfc_ftext n -> clear_text_value (f_unrecognized_headers E) (textcode E) c v -> ends is_wsp i ->
  malformed E (n ++ bs ":" ++ c ++ CRLF) -> any_field E (n ++ [58] ++ c ++ CRLF ++ i) = Ok (i, FUnknown n v).
Proof.
  intros E n c v i HE HD Hn Hv Hi M. destruct (header_line E n c v i HE HD Hn Hv Hi) as [X|(x & r & f & _ & _ & S & X)]; [exact X|]. pose proof (kept_any E n c v i HE Hn Hv Hi M r f X) as ->. discriminate S.
Qed.
Section Lost.
Variables (E : env) (pre : list line) (g n c v post : bytes) (f : field).
Hypothesis HE : env_ok E.
Hypothesis HD : debug E = false \/ f_mime E = false.
Hypothesis Hpre : Forall proper_line pre.
Hypothesis Hg : clear_field E g f.
Hypothesis Hf : forall f', same_field f f' -> f' = f.
Hypothesis Hpost : new_line post.
Hypothesis Hn : chars1 rfc_ftext n.
Hypothesis Hv : clear_text_value (f_unrecognized_headers E) (textcode E) c v.
Hypothesis Hm : malformed E (n ++ bs ":" ++ c ++ CRLF).
Hypothesis HT : ~ starts_trace ((n ++ bs ":" ++ c ++ CRLF) ++ post).
(* a header that is read, replaced by one that is not *)
Lemma replaced : forall fs b, parse_message E (block_text pre ++ g ++ post) = Ok (fs, b) ->
  exists l1 l2, fs = l1 ++ f :: l2 /\ parse_message E (block_text pre ++ (n ++ bs ":" ++ c ++ CRLF) ++ post) = Ok (l1 ++ FUnknown n v :: l2, b).
Proof.
  intros fs b M. destruct (any_field_forward E g f post (ok_hash E HE) Hg (new_line_ends _ Hpost)) as (f' & F & S). apply Hf in S as ->.
  apply (somewhere E pre g post f HE Hpre F (fun T => clear_no_trace E g f post Hg T)) in M as (l1 & r & l2 & -> & M). exists l1, l2. split; [reflexivity|].
  apply (somewhere E pre (n ++ bs ":" ++ c ++ CRLF) post (FUnknown n v) HE Hpre).
  - change (bs ":") with [58]. rewrite <- !app_assoc. apply malformed_any; auto. now apply new_line_ends.
  - intros _. exact HT.
  - exists l1, r, l2. auto.
Qed.
End Lost.
Lemma name_no_trace : forall (name : string) n r, same_nocase n (bs name) -> ~ In 58 (bs name) -> Forall (fun t => bytes_eqb (map fold_case (bs name)) (map fold_case (bs t)) = false) tracing -> ~ starts_trace (n ++ bs ":" ++ r).
Proof.
  intros name n r Hn Nc T (t & m & q & Hi & Hm & E). change (bs ":") with [58] in E. cbn [app] in E. apply colon_unique in E as [-> _].
  - exact (nocase_differs m name t Hn (proj1 (Forall_forall _ _) T t Hi) Hm).
  - eapply fold_nocolon; eauto.
  - eapply fold_nocolon; [exact Hm|now apply tracing_no_colon].
Qed.
Theorem date_lost : forall E pre g d n c v post e, env_ok E -> debug E = false \/ f_mime E = false -> Forall proper_line pre -> new_line post ->
  f_date E = true -> clear_field E g (FDate d) -> same_nocase n (bs "Date") -> undated c -> (f_unrecognized_headers E = true -> no_encoded c) -> unfolded c v ->
  parse E (block_text pre ++ g ++ post) = Ok e -> parse E (block_text pre ++ n ++ bs ":" ++ c ++ CRLF ++ post) = Err (MissingHeader "Date").
Proof.
  intros E pre g d n c v post e HE HD Hp Hi HF Hg Hn Hc N Hv H. assert (Fn : chars1 rfc_ftext n).
  { apply (nocase_ftext_eq (bs "Date")); [now apply nocase_sym|]. split; [discriminate|]. apply Forall_forall. intros x Hx. vm_compute in Hx. unfold rfc_ftext. lia. }
  destruct (parse_ok_message _ _ _ H) as (fs & b & M). pose proof (mandatory E _ fs b e HE M H) as (M1 & M2 & _). apply (parse_iff_email E _ fs b e HE M) in H.
  destruct (replaced E pre g n c v post (FDate d) HE HD Hp Hg) with (fs := fs) (b := b) as (l1 & l2 & -> & X); auto.
  - intros f' S. now inversion S.
  - now apply text_value_written.
  - now apply date_malformed.
  - rewrite <- !app_assoc. apply (name_no_trace "Date"); [exact Hn|no_colon|]. unfold tracing. repeat (apply Forall_cons; [reflexivity|]). apply Forall_nil.
  - rewrite <- !app_assoc in X. pose proof (around_unique l1 (FDate d) l2 (of_unique _ _ _ _ H)) as U. destruct (M2 HF) as (d' & _ & P).
    apply (missing_date E _ (l1 ++ FUnknown n v :: l2) b HE X); auto.
    + rewrite pick_around; [exact U|reflexivity].
    + intros T. rewrite pick_around by reflexivity. specialize (M1 T). rewrite pick_around in M1 by reflexivity. rewrite M1. discriminate.
    + rewrite pick_around by reflexivity. rewrite pick_app, pick_cons in P. cbn [is_date opt_list app] in P. rewrite pick_app. destruct (pick is_date l1) as [|x q]; cbn [app] in *; [injection P as _ P; exact P|]. injection P as _ P. destruct q; discriminate P.
Qed.
Theorem from_lost : forall E pre g l n c v post e, env_ok E -> debug E = false \/ f_mime E = false -> Forall proper_line pre -> new_line post ->
  f_from E = true -> clear_field E g (FFrom l) -> same_nocase n (bs "From") -> ~ In 64 c -> (f_unrecognized_headers E = true -> no_encoded c) -> unfolded c v ->
  parse E (block_text pre ++ g ++ post) = Ok e -> parse E (block_text pre ++ n ++ bs ":" ++ c ++ CRLF ++ post) = Err (MissingHeader "From").
Proof.
  intros E pre g d n c v post e HE HD Hp Hi HF Hg Hn Hc N Hv H. assert (Fn : chars1 rfc_ftext n).
  { apply (nocase_ftext_eq (bs "From")); [now apply nocase_sym|]. split; [discriminate|]. apply Forall_forall. intros x Hx. vm_compute in Hx. unfold rfc_ftext. lia. }
  destruct (parse_ok_message _ _ _ H) as (fs & b & M). pose proof (mandatory E _ fs b e HE M H) as (M1 & _). apply (parse_iff_email E _ fs b e HE M) in H.
  destruct (replaced E pre g n c v post (FFrom d) HE HD Hp Hg) with (fs := fs) (b := b) as (l1 & l2 & -> & X); auto.
  - intros f' S. now inversion S.
  - now apply text_value_written.
  - now apply from_malformed.
  - rewrite <- !app_assoc. apply (name_no_trace "From"); [exact Hn|no_colon|]. unfold tracing. repeat (apply Forall_cons; [reflexivity|]). apply Forall_nil.
  - rewrite <- !app_assoc in X. pose proof (around_unique l1 (FFrom d) l2 (of_unique _ _ _ _ H)) as U. pose proof (M1 HF) as P.
    apply (missing_from E _ (l1 ++ FUnknown n v :: l2) b HE X); auto.
    + rewrite pick_around; [exact U|reflexivity].
    + rewrite pick_around by reflexivity. rewrite pick_app, pick_cons in P. cbn [is_from opt_list app] in P. rewrite pick_app. destruct (pick is_from l1) as [|x q]; cbn [app] in *; [injection P as _ P; exact P|]. injection P as _ P. destruct q; discriminate P.
Qed.
Theorem date_obsolete : forall c, named_zone c \/ early_year c -> undated c.
Proof. intros c [H|H]; [left; now apply named_unsigned|right; now apply early_yearless]. Qed.
Theorem date_replaced : forall E pre g d n c v post e, env_ok E -> debug E = false \/ f_mime E = false -> Forall proper_line pre -> new_line post ->
  f_date E = true -> rfc_header "Date" (tidily rfc_date_value) g d -> same_nocase n (bs "Date") -> undated c -> (f_unrecognized_headers E = true -> no_encoded c) -> unfolded c v ->
  parse E (block_text pre ++ g ++ post) = Ok e -> parse E (block_text pre ++ n ++ bs ":" ++ c ++ CRLF ++ post) = Err (MissingHeader "Date").
Proof. intros E pre g d n c v post e HE HD Hp Hi HF Hg. exact (date_lost E pre g d n c v post e HE HD Hp Hi HF (clear_date E g d HF Hg)). Qed.

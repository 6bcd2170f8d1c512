(* A structured header parser stops before a fold only after a line of blanks: it takes every
   other fold. Without the mime feature. *)
From Coq Require Import Lia ZifyBool ZifyNat ZifyN.
From Verif Require Import Base Utf8 CharSets Combinators Whitespace QuotedString EncodedWord Common Time Address Percent MimeFields Fields
  Rfc5322 Rfc2047 Post CodecSpec RfcFields SoundBase SoundTime SoundAddr TagNoCase SoundFields Complete CompleteFields Forward Writers WriteFacts WriteAddr NeatFacts.
Local Open Scope N_scope.

Definition fold_start (r : bytes) : Prop := exists x t, r = CRLF ++ x :: t /\ rfc_WSP x.
Definition blank_end (c : bytes) : Prop := exists a w, c = a ++ CRLF ++ w /\ chars1 rfc_WSP w.
Definition keen {A} (x : res (bytes * A)) (j : bytes) : Prop := match x with Ok (r, _) => exists c, j = c ++ r /\ (fold_start r -> blank_end c) | _ => True end.
Definition lazy {A} (x : res (bytes * A)) (j : bytes) : Prop := match x with Ok (r, _) => exists c, j = c ++ r /\ (fold_start r -> c = [] \/ blank_end c) | _ => True end.

Lemma blank_app : forall a b, blank_end b -> blank_end (a ++ b).
Proof. intros a b (x & w & -> & H). exists (a ++ x), w. split; [now rewrite <- app_assoc|exact H]. Qed.
Lemma keen_lazy : forall A (x : res (bytes * A)) j, keen x j -> lazy x j.
Proof. intros A [[r a]|e|k] j; cbn; auto. intros (c & H & H'). exists c. auto. Qed.
Lemma keen_moves : forall A (x : res (bytes * A)) j, keen x j -> moves x j.
Proof. intros A [[r a]|e|k] j; cbn; auto. intros (c & H & _). eauto. Qed.
Lemma lazy_ok : forall A r (a : A), lazy (Ok (r, a)) r.
Proof. intros. exists []. auto. Qed.
Lemma keen_then : forall A B (x : res (bytes * A)) (k : bytes * A -> res (bytes * B)) j, keen x j -> (forall r a, lazy (k (r, a)) r) -> keen (bind x k) j.
Proof.
  intros A B [[r a]|e|kk] k j; cbn; auto. intros (c & -> & H) HK. specialize (HK r a). destruct (k (r, a)) as [[r' b]|e|kk]; cbn in *; auto. destruct HK as (c' & -> & H').
  exists (c ++ c'). split; [now rewrite app_assoc|]. intros L. destruct (H' L) as [->|X]; [|now apply blank_app]. rewrite app_nil_r. apply H. exact L.
Qed.
Lemma keen_bind : forall A B (x : res (bytes * A)) (k : bytes * A -> res (bytes * B)) j, moves x j -> (forall r a, keen (k (r, a)) r) -> keen (bind x k) j.
Proof.
  intros A B [[r a]|e|kk] k j; cbn; auto. intros (c & ->) HK. specialize (HK r a). destruct (k (r, a)) as [[r' b]|e|kk]; cbn in *; auto. destruct HK as (c' & -> & H').
  exists (c ++ c'). split; [now rewrite app_assoc|]. intros L. apply blank_app; auto.
Qed.
Lemma lazy_bind : forall A B (x : res (bytes * A)) (k : bytes * A -> res (bytes * B)) j, lazy x j -> (forall r a, lazy (k (r, a)) r) -> lazy (bind x k) j.
Proof.
  intros A B [[r a]|e|kk] k j; cbn; auto. intros (c & -> & H) HK. specialize (HK r a). destruct (k (r, a)) as [[r' b]|e|kk]; cbn in *; auto. destruct HK as (c' & -> & H').
  exists (c ++ c'). split; [now rewrite app_assoc|]. intros L. destruct (H' L) as [->|X]; [|right; now apply blank_app]. rewrite app_nil_r. apply H. exact L.
Qed.
Lemma keen_last : forall A B (x : res (bytes * A)) (f : A -> B) j, keen x j -> keen (bind x (fun '(r, a) => Ok (r, f a))) j.
Proof. intros. apply keen_then; auto. intros. apply lazy_ok. Qed.
Lemma keen_attempt : forall A B (x : res (bytes * A)) (k : bytes * A -> res (bytes * B)) f j, keen x j -> (forall r a, lazy (k (r, a)) r) -> keen f j -> keen (attempt x k f) j.
Proof. intros A B x k f j Hx Hk Hf. destruct x as [[r a]|e|kk]; cbn [attempt]; auto. apply (keen_then _ _ (Ok (r, a)) k j Hx Hk). Qed.
Lemma lazy_attempt : forall A B (x : res (bytes * A)) (k : bytes * A -> res (bytes * B)) f j, lazy x j -> (forall r a, lazy (k (r, a)) r) -> lazy f j -> lazy (attempt x k f) j.
Proof. intros A B x k f j Hx Hk Hf. destruct x as [[r a]|e|kk]; cbn [attempt]; auto. apply (lazy_bind _ _ (Ok (r, a)) k j Hx Hk). Qed.
Lemma keen_match : forall A (ps : list (parser A)) j, Forall (fun p : parser A => keen (p j) j) ps -> keen (match_parsers ps j) j.
Proof. intros A ps j H. induction H as [|p ps Hp _ IH]; cbn [match_parsers]; [exact I|]. apply keen_attempt; auto. intros. apply lazy_ok. Qed.
Lemma keen_pmap : forall A B (f : A -> B) (p : parser A) j, keen (p j) j -> keen (pmap f p j) j.
Proof. intros. unfold pmap. now apply keen_last. Qed.
Lemma lazy_many_fuel : forall A (p : parser A) n j, (forall j, lazy (p j) j) -> lazy (many_fuel n p j) j.
Proof.
  intros A p n. induction n as [|n IH]; intros j H; cbn [many_fuel]; [exact I|]. apply lazy_attempt; auto; [|apply lazy_ok]. intros r a. apply lazy_bind; [now apply IH|]. intros. apply lazy_ok.
Qed.
Lemma lazy_many : forall A (p : parser A) j, (forall j, lazy (p j) j) -> lazy (many p j) j.
Proof. intros. now apply lazy_many_fuel. Qed.
Lemma keen_many1 : forall A (p : parser A) j, (forall j, keen (p j) j) -> keen (many1 p j) j.
Proof. intros. unfold many1. apply keen_then; auto. intros. apply lazy_bind; [apply lazy_many; intros; now apply keen_lazy|]. intros. apply lazy_ok. Qed.
Lemma keen_prefixed : forall A (p : parser A) e j, (forall j, keen (p j) j) -> keen (prefixed p e j) j.
Proof.
  intros A p e j H. unfold prefixed. destruct (starts_with j e) eqn:S; [|exact I]. apply starts_with_spec in S as (r & ->). rewrite unchecked_from_app. cbn [bind].
  specialize (H r). destruct (p r) as [[r' b]|x|k]; cbn in *; auto. destruct H as (c & -> & H). exists (e ++ c). split; [now rewrite app_assoc|]. intros L. apply blank_app; auto.
Qed.

(* ---- white space ---- *)
Lemma blanks_split : forall t, exists w u, t = w ++ u /\ chars rfc_WSP w /\ ends is_wsp u.
Proof.
  induction t as [|c t (w & u & -> & Hw & Hu)]; [now exists [], []|]. destruct (is_wsp c) eqn:C.
  - exists (c :: w), u. split; [reflexivity|]. split; [constructor; [now apply wsp_spec|exact Hw]|exact Hu].
  - exists [], (c :: w ++ u). split; [reflexivity|]. split; [constructor|exact C].
Qed.
Lemma fws_takes_fold : forall w0 r, chars rfc_WSP w0 -> fold_start r -> exists r' v, fws (w0 ++ r) = Ok (r', v) /\ (length r' < length r)%nat.
Proof.
  intros w0 r H0 (x & t & -> & Hx). destruct (blanks_split t) as (w & u & -> & Hw & Hu).
  assert (F : rfc_FWS (w0 ++ CRLF ++ (x :: w)) (w0 ++ (x :: w))). { constructor; auto. split; [discriminate|now constructor]. }
  exists u. eexists. split.
  - replace (w0 ++ CRLF ++ x :: w ++ u) with ((w0 ++ CRLF ++ (x :: w)) ++ u) by now rewrite <- !app_assoc. apply fws_forward; [exact F|exact Hu|].
    right. apply settled_fold. now constructor.
  - cbn [CRLF app length]. rewrite app_length. lia.
Qed.
Lemma keen_fws : forall j, keen (fws j) j.
Proof.
  intros j. pose proof (sound_fws never j) as S. destruct (fws j) as [[r v]|e|k] eqn:F; cbn in *; auto. destruct S as (c & -> & H). exists c. split; [reflexivity|]. intros L.
  destruct H as [w [Hn Hw]|w1 w2 H1 H2]; [|now exists w1, w2]. exfalso. destruct (fws_takes_fold w r Hw L) as (r' & v' & X & Y). rewrite X in F. injection F as -> _. lia.
Qed.
Lemma keen_ofws : forall j, keen (optional fws j) j.
Proof.
  intros j. unfold optional. pose proof (keen_fws j) as K. destruct (fws j) as [[r v]|e|k] eqn:F; cbn [attempt]; auto. exists []. split; [reflexivity|]. intros L.
  exfalso. destruct (fws_takes_fold [] j ltac:(constructor) L) as (r' & v' & X & _). cbn [app] in X. congruence.
Qed.
Lemma keen_cfws : forall j, keen (cfws j) j.
Proof.
  assert (FC : forall j, neat (fws_comment j) j). { intros j. unfold fws_comment. apply neat_bind; [apply neat_optional, neat_fws|]. intros r a. apply neat_bind; [apply firm_neat, firm_comment|]. intros. apply neat_ok. }
  intros j. unfold cfws. apply keen_match. repeat apply Forall_cons; [|apply keen_fws|apply Forall_nil]. unfold real_cfws. apply keen_bind; [eapply post_moves; apply (post_map_err _ never), sound_fws_comment|].
  intros. apply keen_bind; [apply neat_moves, neat_many; apply FC|]. intros. apply keen_last, keen_ofws.
Qed.
Lemma cfws_takes_fold : forall r e, fold_start r -> cfws r <> Err e.
Proof.
  intros r e L X. unfold cfws in X. cbn [match_parsers] in X. destruct (fws_takes_fold [] r ltac:(constructor) L) as (r' & v & F & _). cbn [app] in F. rewrite F in X.
  destruct (real_cfws r) as [[a b]|e'|k]; cbn [attempt] in X; discriminate.
Qed.
Lemma keen_ocfws : forall j, keen (optional cfws j) j.
Proof.
  intros j. unfold optional. pose proof (keen_cfws j) as K. destruct (cfws j) as [[r v]|e|k] eqn:F; cbn [attempt]; auto. exists []. split; [reflexivity|]. intros L. exfalso. exact (cfws_takes_fold j e L F).
Qed.
Lemma keen_skip : forall A j (k : bytes -> res (bytes * A)), (forall r, keen (k r) r) -> keen (bind (skip_cfws j) k) j.
Proof. intros. rewrite skip_as_optional. apply keen_bind; [apply ocfws_moves|]. intros. apply H. Qed.
Lemma keen_ends : forall A j (a : A), keen (let* r := skip_cfws j in Ok (r, a)) j.
Proof. intros. rewrite skip_as_optional. apply keen_then; [apply keen_ocfws|]. intros. apply lazy_ok. Qed.

(* ---- words and phrases ---- *)
Lemma keen_atom : forall j, keen (atom j) j.
Proof.
  intros j. unfold atom. apply keen_skip. intros r. apply keen_bind; [|intros; apply keen_ends].
  apply neat_moves, firm_neat, firm_map_err. eapply firm_chars; [apply atext_spec|apply atext_ascii|apply atext_ink].
Qed.
Lemma keen_dot_atom : forall E j, keen (dot_atom E j) j.
Proof. intros E j. unfold dot_atom. apply keen_skip. intros r. apply keen_bind; [apply neat_moves, firm_neat, firm_dot_atom_text|]. intros; apply keen_ends. Qed.
Lemma keen_mark : forall A x j e (k : bytes -> res (bytes * A)), (forall r, keen (k r) r) -> keen (if starts_with j [x] then bind (index_from j 1) k else Err e) j.
Proof.
  intros A x j e k H. destruct (starts_with j [x]) eqn:S; [|exact I]. apply starts_with_spec in S as (r & ->). change 1%nat with (length [x]). rewrite index_from_app. cbn [bind].
  specialize (H r). destruct (k r) as [[r' b]|e'|kk]; cbn in *; auto. destruct H as (c & -> & H). exists (x :: c). split; [reflexivity|]. intros L. apply (blank_app [x]); auto.
Qed.
Lemma keen_quoted_string : forall j, keen (quoted_string j) j.
Proof.
  intros j. unfold quoted_string. apply keen_skip. intros r. apply keen_mark. intros q. apply keen_bind.
  - eapply post_moves. apply (post_collect_many never quoted_string_step qchunk); [|intros; apply sound_quoted_string_step].
    intros ? ? (? & ? & t & ? & -> & _ & _ & Ht & _) E. apply app_eq_nil in E. tauto.
  - intros r' o. apply keen_bind.
    + pose proof (neat_fws r') as N. destruct (fws r') as [[r'' s]|e|k]; cbn in *; auto; [|now exists []]. destruct N as (c & H & _). eauto.
    + intros r'' o'. apply keen_mark. intros. apply keen_ends.
Qed.
Lemma keen_word : forall j, keen (word j) j.
Proof. intros. unfold word. apply keen_match. each; [apply keen_atom|apply keen_quoted_string]. Qed.
Lemma keen_phrase : forall E j, f_mime E = false -> keen (phrase E j) j.
Proof. intros E j H. apply keen_many1. intros i. unfold phrase_word. rewrite H. apply keen_word. Qed.

(* ---- addresses ---- *)
Ltac kclose := apply keen_bind; [apply neat_moves, firm_neat; mark|]; intros; apply keen_then; [apply keen_ocfws|]; intros; apply lazy_ok.
Ltac ktagged := apply keen_bind; [apply neat_moves, firm_neat; mark|]; intros ? ?.
Lemma keen_domain_literal : forall j, keen (domain_literal j) j.
Proof.
  intros j. unfold domain_literal. apply keen_bind; [apply ocfws_moves|]. intros r _. ktagged. apply keen_bind.
  { eapply post_moves. apply (post_collect_many never domain_literal_step dchunk); [|intros; apply sound_domain_literal_step]. intros c v (w & x & E & _ & [H _]) ->. symmetry in E. apply app_eq_nil in E as [_ E]. contradiction. }
  intros. apply keen_bind; [apply neat_moves, neat_optional, neat_fws|]. intros. kclose.
Qed.
Lemma keen_domain : forall E j, keen (domain E j) j.
Proof. intros. unfold domain. apply keen_match. each; [apply keen_dot_atom|apply keen_domain_literal]. Qed.
Lemma keen_addr_spec : forall E j, keen (addr_spec E j) j.
Proof. intros. unfold addr_spec. apply keen_bind; [mvE sound_local_part|]. intros. ktagged. apply keen_then; [apply keen_domain|]. intros. apply lazy_ok. Qed.
Lemma keen_angle_addr : forall E j, keen (angle_addr E j) j.
Proof. intros. unfold angle_addr. apply keen_bind; [apply ocfws_moves|]. intros. ktagged. apply keen_bind; [mvE sound_addr_spec|]. intros. kclose. Qed.
Lemma keen_mailbox : forall E j, keen (mailbox E j) j.
Proof.
  intros E j. unfold mailbox. apply keen_match. each; [|apply keen_pmap, keen_addr_spec]. unfold name_addr. apply keen_bind; [apply neat_moves, neat_optional, firm_neat, firm_phrase|]. intros. apply keen_then; [apply keen_angle_addr|]. intros. apply lazy_ok.
Qed.
Lemma keen_commas : forall A (p : parser A) j, (forall j, keen (p j) j) -> keen (let* (i, a) := p j in let* (i, l) := many (prefixed p (bs ",")) i in Ok (i, a :: l)) j.
Proof.
  intros A p j H. apply keen_then; auto. intros r a. apply lazy_bind; [|intros; apply lazy_ok]. apply lazy_many. intros i. apply keen_lazy, keen_prefixed. exact H.
Qed.
Lemma keen_mailbox_list : forall E j, keen (mailbox_list E j) j.
Proof. intros. unfold mailbox_list. apply keen_commas, keen_mailbox. Qed.
Lemma keen_group : forall E j, keen (group E j) j.
Proof.
  intros E j. unfold group. apply keen_bind; [mvE sound_phrase|]. intros r n. ktagged. apply keen_bind; [|intros; kclose].
  apply neat_moves. apply neat_attempt; [apply firm_neat, firm_mailbox_list|intros; apply neat_ok|]. apply neat_attempt; [apply neat_cfws|intros; apply neat_ok|apply neat_ok].
Qed.
Lemma keen_address : forall E j, keen (address E j) j.
Proof. intros. unfold address. apply keen_attempt; [apply keen_mailbox|intros; apply lazy_ok|]. apply keen_attempt; [apply keen_group|intros; apply lazy_ok|exact I]. Qed.
Lemma keen_address_list : forall E j, keen (address_list E j) j.
Proof. intros. unfold address_list. apply keen_commas, keen_address. Qed.
Lemma keen_message_id : forall E j, keen (message_id E j) j.
Proof.
  intros E j. unfold message_id. apply keen_bind; [apply ocfws_moves|]. intros. ktagged. apply keen_bind; [apply neat_moves, firm_neat, firm_dot_atom_text|]. intros. ktagged. apply keen_bind; [|intros; kclose].
  apply neat_moves, neat_match. each; [apply firm_neat, firm_dot_atom_text|]. unfold no_fold_litteral. apply neat_bind; [apply firm_neat; mark|]. intros. apply firm_neat, firm_bind.
  - eapply post_moves. apply (sound_take_while never is_dtext rfc_dtext _ dtext_spec dtext_ascii).
  - intros. apply firm_then; [mark|]. intros. apply neat_ok.
Qed.
Lemma keen_date_time : forall E j, keen (date_time E j) j.
Proof.
  intros E j. unfold date_time. apply keen_bind; [mv sound_day_of_week|]. intros r d. apply keen_bind.
  { unfold date. apply moves_bind; [mvE sound_day|]. intros. apply moves_bind; [mv sound_month|]. intros. apply moves_bind; [mv sound_year|]. intros. now exists []. }
  intros. apply keen_bind; [|intros; apply keen_then; [apply keen_ocfws|]; intros; apply lazy_ok].
  unfold time. apply moves_bind; [mvE sound_time_of_day|]. intros. apply moves_bind; [apply neat_moves, firm_neat, firm_zone|]. intros. now exists [].
Qed.

(* ---- values of headers ---- *)
Lemma keen_bcc_value : forall E j, keen (bcc_value E j) j.
Proof. intros. unfold bcc_value. apply keen_attempt; [apply keen_address_list|intros; apply lazy_ok|]. apply keen_attempt; [apply keen_cfws|intros; apply lazy_ok|exact I]. Qed.
Lemma keen_ids : forall E j, keen (many1 (message_id E) j) j.
Proof. intros. apply keen_many1, keen_message_id. Qed.
Lemma keen_keywords_value : forall E j, f_mime E = false -> keen (keywords_value E j) j.
Proof. intros. unfold keywords_value. apply keen_commas. intros. now apply keen_phrase. Qed.
Lemma keen_return_path_value : forall E j, keen (return_path_value E j) j.
Proof.
  intros. unfold return_path_value. apply keen_match. each; apply keen_pmap; [apply keen_angle_addr|]. unfold empty_path. apply keen_bind; [apply ocfws_moves|]. intros. ktagged.
  apply keen_bind; [apply ocfws_moves|]. intros. kclose.
Qed.
Lemma received_tokens_moves : forall E j, moves (many (received_token_parser E) j) j.
Proof.
  intros. apply neat_moves, neat_many. intros i. unfold received_token_parser. pose proof (firm_word i) as W. pose proof (firm_domain E i) as D. destruct (word i) as [[r w]|e|k]; cbn [attempt]; [|..|exact I].
  - apply firm_neat. destruct (domain E i) as [[r' d]|e|k]; cbn [attempt]; [destruct (_ <? _)%nat|..]; auto.
  - apply neat_attempt; [apply firm_neat, firm_angle_addr|intros; apply neat_ok|]. apply neat_attempt; [apply firm_neat, firm_addr_spec|intros; apply neat_ok|]. apply neat_attempt; [now apply firm_neat|intros; apply neat_ok|exact I].
Qed.
Lemma keen_received_value : forall E j, keen (received_value E j) j.
Proof. intros. unfold received_value. apply keen_bind; [apply received_tokens_moves|]. intros. ktagged. apply keen_then; [apply keen_date_time|]. intros. apply lazy_ok. Qed.

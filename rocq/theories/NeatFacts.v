(* No structured header parser stops before a line end right after blanks: blanks followed by
   the end of the header are only accepted after a fold. *)
From Coq Require Import Lia ZifyBool ZifyNat ZifyN.
From Verif Require Import Base Utf8 CharSets Combinators Whitespace QuotedString EncodedWord Common Time Address Percent MimeFields Fields
  Rfc5322 Rfc2047 Post CodecSpec RfcFields SoundBase SoundTime SoundAddr TagNoCase SoundFields Complete CompleteFields Forward Writers WriteFacts WriteAddr.
Local Open Scope N_scope.

Definition line_end (r : bytes) : Prop := exists t, r = CRLF ++ t /\ no_blank t.
Definition moves {A} (x : res (bytes * A)) (j : bytes) : Prop := match x with Ok (r, _) => exists c, j = c ++ r | _ => True end.
Definition neat {A} (x : res (bytes * A)) (j : bytes) : Prop := match x with Ok (r, _) => exists c, j = c ++ r /\ (line_end r -> tidy c) | _ => True end.
Definition firm {A} (x : res (bytes * A)) (j : bytes) : Prop := match x with Ok (r, _) => exists c, j = c ++ r /\ c <> [] /\ (line_end r -> tidy c) | _ => True end.

Lemma tidy_nil : tidy [].
Proof. intros a w E [Hw _]. destruct a, w; try discriminate. congruence. Qed.
Lemma tidy_app : forall a b, tidy b -> (b = [] -> tidy a) -> tidy (a ++ b).
Proof.
  intros a b Hb Ha a' w E Hw. destruct b as [|x b].
  - rewrite app_nil_r in E. exact (Ha eq_refl a' w E Hw).
  - apply app_eq_app in E as (l & [[-> E]|[-> E]]).
    + exfalso. subst w. destruct Hw as [_ Hw]. apply Forall_app in Hw as [_ Hw]. destruct (Hb [] (x :: b) eq_refl) as (b' & y & E & _); [split; [discriminate|exact Hw]|]. destruct b'; discriminate.
    + destruct (Hb l w E Hw) as (b' & y & -> & Hy). exists (a ++ b'), y. split; [now rewrite <- app_assoc|exact Hy].
Qed.
Lemma neat_moves : forall A (x : res (bytes * A)) j, neat x j -> moves x j.
Proof. intros A [[r a]|e|k] j; cbn; auto. intros (c & H & _). eauto. Qed.
Lemma firm_neat : forall A (x : res (bytes * A)) j, firm x j -> neat x j.
Proof. intros A [[r a]|e|k] j; cbn; auto. intros (c & H & _ & H'). eauto. Qed.
Lemma post_moves : forall A K (x : res (bytes * A)) j P, post K x j P -> moves x j.
Proof. intros A K [[r a]|e|k] j P; cbn; auto. intros (c & H & _). eauto. Qed.
(* a parser whose text never ends with a blank *)
Lemma post_firm : forall A K (x : res (bytes * A)) j P, post K x j P -> (forall c a, P c a -> ends_ink c) -> firm x j.
Proof.
  intros A K [[r a]|e|k] j P; cbn; auto. intros (c & -> & H) HP. exists c. split; [reflexivity|]. apply HP in H. split; [|intros _; now apply ink_tidy]. destruct H as (x & y & -> & _). destruct x; discriminate.
Qed.
Lemma neat_ok : forall A r (a : A), neat (Ok (r, a)) r.
Proof. intros. exists []. split; [reflexivity|intros _; apply tidy_nil]. Qed.
Lemma neat_bind : forall A B (x : res (bytes * A)) (k : bytes * A -> res (bytes * B)) j, neat x j -> (forall r a, neat (k (r, a)) r) -> neat (bind x k) j.
Proof.
  intros A B [[r a]|e|kk] k j; cbn; auto. intros (c & -> & H) HK. specialize (HK r a). destruct (k (r, a)) as [[r' b]|e|kk]; cbn in *; auto. destruct HK as (c' & -> & H').
  exists (c ++ c'). split; [now rewrite app_assoc|]. intros L. apply tidy_app; [auto|]. intros ->. apply H. exact L.
Qed.
Lemma firm_bind : forall A B (x : res (bytes * A)) (k : bytes * A -> res (bytes * B)) j, moves x j -> (forall r a, firm (k (r, a)) r) -> firm (bind x k) j.
Proof.
  intros A B [[r a]|e|kk] k j; cbn; auto. intros (c & ->) HK. specialize (HK r a). destruct (k (r, a)) as [[r' b]|e|kk]; cbn in *; auto. destruct HK as (c' & -> & N & H').
  exists (c ++ c'). split; [now rewrite app_assoc|]. split; [destruct c; [exact N|discriminate]|]. intros L. apply tidy_app; [auto|congruence].
Qed.
Lemma firm_then : forall A B (x : res (bytes * A)) (k : bytes * A -> res (bytes * B)) j, firm x j -> (forall r a, neat (k (r, a)) r) -> firm (bind x k) j.
Proof.
  intros A B [[r a]|e|kk] k j; cbn; auto. intros (c & -> & N & H) HK. specialize (HK r a). destruct (k (r, a)) as [[r' b]|e|kk]; cbn in *; auto. destruct HK as (c' & -> & H').
  exists (c ++ c'). split; [now rewrite app_assoc|]. split; [destruct c; [congruence|discriminate]|]. intros L. apply tidy_app; [auto|]. intros ->. apply H. exact L.
Qed.
Lemma moves_bind : forall A B (x : res (bytes * A)) (k : bytes * A -> res (bytes * B)) j, moves x j -> (forall r a, moves (k (r, a)) r) -> moves (bind x k) j.
Proof.
  intros A B [[r a]|e|kk] k j; cbn; auto. intros (c & ->) HK. specialize (HK r a). destruct (k (r, a)) as [[r' b]|e|kk]; cbn in *; auto. destruct HK as (c' & ->).
  exists (c ++ c'). now rewrite app_assoc.
Qed.
Lemma neat_attempt : forall A B (x : res (bytes * A)) (k : bytes * A -> res (bytes * B)) f j, neat x j -> (forall r a, neat (k (r, a)) r) -> neat f j -> neat (attempt x k f) j.
Proof. intros A B x k f j Hx Hk Hf. destruct x as [[r a]|e|kk]; cbn [attempt]; auto. apply (neat_bind _ _ (Ok (r, a)) k j Hx Hk). Qed.
Lemma neat_match : forall A (ps : list (parser A)) j, Forall (fun p : parser A => neat (p j) j) ps -> neat (match_parsers ps j) j.
Proof.
  intros A ps j H. induction H as [|p ps Hp _ IH]; cbn [match_parsers]; [exact I|]. apply neat_attempt; auto. intros. apply neat_ok.
Qed.
Lemma neat_optional : forall A (p : parser A) j, neat (p j) j -> neat (optional p j) j.
Proof. intros A p j H. unfold optional. apply neat_attempt; auto; intros; apply neat_ok. Qed.
Lemma neat_pmap : forall A B (f : A -> B) (p : parser A) j, neat (p j) j -> neat (pmap f p j) j.
Proof. intros. unfold pmap. apply neat_bind; auto. intros. apply neat_ok. Qed.
Lemma neat_many_fuel : forall A (p : parser A) n j, (forall j, neat (p j) j) -> neat (many_fuel n p j) j.
Proof.
  intros A p n. induction n as [|n IH]; intros j H; cbn [many_fuel]; [exact I|]. apply neat_attempt; auto; [|apply neat_ok]. intros r a. apply neat_bind; [now apply IH|]. intros. apply neat_ok.
Qed.
Lemma neat_many : forall A (p : parser A) j, (forall j, neat (p j) j) -> neat (many p j) j.
Proof. intros. now apply neat_many_fuel. Qed.
Lemma neat_many1 : forall A (p : parser A) j, (forall j, neat (p j) j) -> neat (many1 p j) j.
Proof. intros. unfold many1. apply neat_bind; auto. intros. apply neat_bind; [now apply neat_many|]. intros. apply neat_ok. Qed.
Lemma firm_tag : forall e m j, ends_ink e -> firm (tag e m j) j.
Proof. intros e m j H. eapply (post_firm _ never); [apply post_tag|]. now intros c a ->. Qed.
Lemma neat_prefixed : forall A (p : parser A) e j, ends_ink e -> (forall j, neat (p j) j) -> neat (prefixed p e j) j.
Proof.
  intros A p e j He H. unfold prefixed. destruct (starts_with j e) eqn:S; [|exact I]. apply starts_with_spec in S as (r & ->). rewrite unchecked_from_app. cbn [bind].
  specialize (H r). destruct (p r) as [[r' b]|x|k]; cbn in *; auto. destruct H as (c & -> & H). exists (e ++ c). split; [now rewrite app_assoc|]. intros L. apply tidy_app; auto. intros _. now apply ink_tidy.
Qed.

(* ---- white space ---- *)
Lemma firm_fws : forall j, firm (fws j) j.
Proof.
  intros j. pose proof (sound_fws never j) as S. destruct (fws j) as [[r v]|e|k] eqn:F; cbn in *; auto. destruct S as (c & -> & H). exists c. split; [reflexivity|]. split; [eapply FWS_nonempty; eauto|].
  intros (t & -> & Ht). destruct H as [w [Hn Hw]|w1 w2 H1 [Hn H2]].
  - exfalso. destruct (fws_blank_crlf w t Hw (no_blank_ends _ Ht)) as [e X]. congruence.
  - intros a w E Hw. rewrite app_assoc in E. apply app_eq_app in E as (l & [[E ->]|[-> E]]).
    + destruct l as [|x l]; [rewrite app_nil_r in E; subst a; exists (w1 ++ [13]), 10; split; [now rewrite <- app_assoc|now left]|]. exfalso. destruct Hw as [_ Hw]. apply Forall_app in Hw as [Hw _].
      destruct (exists_last (l := x :: l)) as (y & z & Y); [discriminate|]. rewrite Y in *. change CRLF with ([13] ++ [10]) in E. rewrite !app_assoc in E. apply app_inj_tail in E as [_ <-].
      apply Forall_app in Hw as [_ Hw]. apply Forall_inv in Hw. unfold rfc_WSP in Hw. lia.
    + destruct l as [|x l] using rev_ind; [rewrite app_nil_r; exists (w1 ++ [13]), 10; split; [now rewrite <- app_assoc|now left]|]. clear IHl. exists ((w1 ++ CRLF) ++ l), x. split; [now rewrite app_assoc|]. right.
      subst w2. apply Forall_app in H2 as [H2 _]. apply Forall_app in H2 as [_ H2]. now apply Forall_inv in H2.
Qed.
Lemma neat_fws : forall j, neat (fws j) j.
Proof. intros. apply firm_neat, firm_fws. Qed.
Lemma comment_ink : forall c, rfc_comment c -> ends_ink c.
Proof. intros c []. ink. Qed.
Lemma firm_comment : forall j, firm (comment j) j.
Proof. intros j. eapply (post_firm _ never); [apply sound_comment|]. intros c a [_ H]. now apply comment_ink. Qed.
Lemma neat_cfws : forall j, neat (cfws j) j.
Proof.
  assert (FC : forall j, neat (fws_comment j) j). { intros j. unfold fws_comment. apply neat_bind; [apply neat_optional, neat_fws|]. intros r a. apply neat_bind; [apply firm_neat, firm_comment|]. intros. apply neat_ok. }
  intros j. unfold cfws. apply neat_match. repeat constructor; [|apply neat_fws]. unfold real_cfws. apply neat_bind.
  - specialize (FC j). destruct (fws_comment j) as [[r a]|e|k]; cbn in *; auto.
  - intros r a. apply neat_bind; [now apply neat_many|]. intros. apply neat_bind; [apply neat_optional, neat_fws|]. intros. apply neat_ok.
Qed.
Lemma neat_ocfws : forall j, neat (optional cfws j) j.
Proof. intros. apply neat_optional, neat_cfws. Qed.
Lemma skip_as_optional : forall A j (k : bytes -> res (bytes * A)), bind (skip_cfws j) k = bind (optional cfws j) (fun '(r, _) => k r).
Proof. intros A j k. unfold skip_cfws, optional. destruct (cfws j) as [[r a]|e|c]; reflexivity. Qed.
Lemma neat_skip : forall A j (k : bytes -> res (bytes * A)), (forall r, neat (k r) r) -> neat (bind (skip_cfws j) k) j.
Proof. intros. rewrite skip_as_optional. apply neat_bind; [apply neat_ocfws|]. intros. apply H. Qed.
Lemma firm_skip : forall A j (k : bytes -> res (bytes * A)), (forall r, firm (k r) r) -> firm (bind (skip_cfws j) k) j.
Proof. intros. rewrite skip_as_optional. apply firm_bind; [apply neat_moves, neat_ocfws|]. intros. apply H. Qed.

(* ---- words and phrases ---- *)
Lemma firm_chars : forall f (P : byte -> Prop) j, (forall c, f c = true <-> P c) -> (forall c, f c = true -> ascii_byte c) -> (forall c, P c -> ~ rfc_WSP c) -> firm (take_while1 f j) j.
Proof. intros f P j H1 H2 H3. eapply (post_firm _ never); [apply sound_take_while1; eauto|]. intros c a [_ H]. eapply chars1_ink; eauto. Qed.
Lemma firm_map_err : forall A (x : res (bytes * A)) e j, firm x j -> firm (map_err x e) j.
Proof. intros A [[r a]|e'|k] e j; cbn; auto. Qed.
Lemma firm_atom : forall j, firm (atom j) j.
Proof.
  intros j. unfold atom. apply firm_skip. intros r. apply firm_then.
  - apply firm_map_err. eapply firm_chars; [apply atext_spec|apply atext_ascii|apply atext_ink].
  - intros. apply neat_skip. intros. apply neat_ok.
Qed.
Lemma firm_dot_atom_text : forall E j, firm (dot_atom_text E j) j.
Proof. intros. eapply (post_firm _ never); [apply sound_dot_atom_text|]. intros c a [_ H]. eapply dot_text_ink; eauto. Qed.
Lemma firm_dot_atom : forall E j, firm (dot_atom E j) j.
Proof.
  intros E j. unfold dot_atom. apply firm_skip. intros r. apply firm_then; [apply firm_dot_atom_text|].
  intros. apply neat_skip. intros. apply neat_ok.
Qed.
Lemma firm_mark : forall A x j e (k : bytes -> res (bytes * A)), ~ rfc_WSP x -> (forall r, neat (k r) r) -> firm (if starts_with j [x] then bind (index_from j 1) k else Err e) j.
Proof.
  intros A x j e k Hx H. destruct (starts_with j [x]) eqn:S; [|exact I]. apply starts_with_spec in S as (r & ->). change 1%nat with (length [x]). rewrite index_from_app. cbn [bind].
  specialize (H r). destruct (k r) as [[r' b]|e'|kk]; cbn in *; auto. destruct H as (c & -> & H). exists (x :: c). split; [reflexivity|]. split; [discriminate|]. intros L. apply (tidy_app [x]); auto. intros _. now apply ink_tidy, (ink_one []).
Qed.
Lemma firm_quoted_string : forall j, firm (quoted_string j) j.
Proof.
  intros j. unfold quoted_string. apply firm_skip. intros r. destruct (starts_with r [DQUOTE]) eqn:S; [|exact I]. apply starts_with_spec in S as (q & ->). change 1%nat with (length [DQUOTE]) at 1. rewrite index_from_app. cbn [bind].
  match goal with |- firm ?x _ => assert (G : firm x q) end.
  { apply firm_bind.
    - eapply post_moves. apply (post_collect_many never quoted_string_step qchunk); [|intros; apply sound_quoted_string_step].
      intros ? ? (? & ? & t & ? & -> & _ & _ & Ht & _) E. apply app_eq_nil in E. tauto.
    - intros r o. apply firm_bind.
      + pose proof (neat_fws r) as N. destruct (fws r) as [[r' s]|e|k]; cbn in *; auto; [|now exists []]. destruct N as (c & H & _). eauto.
      + intros r' o'. apply firm_mark; [unfold rfc_WSP, DQUOTE; lia|]. intros. apply neat_skip. intros. apply neat_ok. }
  revert G. match goal with |- firm ?x _ -> _ => destruct x as [[r' v]|e|k] end; cbn; auto. intros (c & -> & N & H). exists (DQUOTE :: c). split; [reflexivity|]. split; [discriminate|].
  intros L. apply (tidy_app [DQUOTE]); auto. congruence.
Qed.
Lemma firm_match : forall A (ps : list (parser A)) j, Forall (fun p : parser A => firm (p j) j) ps -> firm (match_parsers ps j) j.
Proof.
  intros A ps j H. induction H as [|p ps Hp _ IH]; cbn [match_parsers]; [exact I|]. destruct (p j) as [[r a]|e|k]; cbn in *; auto.
Qed.
Ltac each := repeat apply Forall_cons; [..|apply Forall_nil].
Lemma firm_word : forall j, firm (word j) j.
Proof. intros. unfold word. apply firm_match. each; [apply firm_atom|apply firm_quoted_string]. Qed.
Lemma firm_encoded_word : forall E j, firm (encoded_word E j) j.
Proof. intros. eapply (post_firm _ never); [apply sound_encoded_word|]. intros c a H. destruct H. change (bs "?=") with ([63] ++ [61]). ink. Qed.
Lemma firm_phrase_word : forall E j, firm (phrase_word E j) j.
Proof.
  intros E j. unfold phrase_word. destruct (f_mime E); [|apply firm_word]. apply firm_match. each; [|apply firm_word]. apply firm_bind; [apply neat_moves, neat_optional, neat_fws|]. intros. apply firm_encoded_word.
Qed.
Lemma firm_many1 : forall A (p : parser A) j, (forall j, firm (p j) j) -> firm (many1 p j) j.
Proof. intros. unfold many1. apply firm_then; auto. intros. apply neat_bind; [apply neat_many; intros; now apply firm_neat|]. intros. apply neat_ok. Qed.
Lemma firm_phrase : forall E j, firm (phrase E j) j.
Proof. intros. apply firm_many1, firm_phrase_word. Qed.
Lemma mark_ink : forall x, ~ rfc_WSP x -> ends_ink [x].
Proof. intros. now apply (ink_one []). Qed.
Ltac one_ink := match goal with |- ends_ink ?s => let v := eval vm_compute in s in change s with v end; apply mark_ink; unfold rfc_WSP; lia.
Ltac mark := apply firm_tag; one_ink.
Lemma ocfws_moves : forall j, moves (optional cfws j) j.
Proof. intros. apply neat_moves, neat_ocfws. Qed.

(* ---- addresses ---- *)
Ltac mv S := eapply post_moves; apply (S never).
Ltac mvE S := eapply post_moves; apply (S _ never).
Ltac close := apply firm_then; [mark|]; intros; apply neat_bind; [apply neat_ocfws|]; intros; apply neat_ok.
Ltac tagged := apply firm_bind; [apply neat_moves, firm_neat; mark|]; intros ? ?.
Lemma firm_domain_literal : forall j, firm (domain_literal j) j.
Proof.
  intros j. unfold domain_literal. apply firm_bind; [apply ocfws_moves|]. intros r _. tagged. apply firm_bind.
  { eapply post_moves. apply (post_collect_many never domain_literal_step dchunk); [|intros; apply sound_domain_literal_step]. intros c v (w & x & E & _ & [H _]) ->. symmetry in E. apply app_eq_nil in E as [_ E]. contradiction. }
  intros. apply firm_bind; [apply neat_moves, neat_optional, neat_fws|]. intros. close.
Qed.
Lemma firm_domain : forall E j, firm (domain E j) j.
Proof. intros. unfold domain. apply firm_match. each; [apply firm_dot_atom|apply firm_domain_literal]. Qed.
Lemma firm_addr_spec : forall E j, firm (addr_spec E j) j.
Proof. intros. unfold addr_spec. apply firm_bind; [mvE sound_local_part|]. intros. tagged. apply firm_then; [apply firm_domain|]. intros. apply neat_ok. Qed.
Lemma firm_angle_addr : forall E j, firm (angle_addr E j) j.
Proof. intros. unfold angle_addr. apply firm_bind; [apply ocfws_moves|]. intros. tagged. apply firm_bind; [mvE sound_addr_spec|]. intros. close. Qed.
Lemma firm_pmap : forall A B (f : A -> B) (p : parser A) j, firm (p j) j -> firm (pmap f p j) j.
Proof. intros. unfold pmap. apply firm_then; auto. intros. apply neat_ok. Qed.
Lemma firm_mailbox : forall E j, firm (mailbox E j) j.
Proof.
  intros E j. unfold mailbox. apply firm_match. each; [|apply firm_pmap, firm_addr_spec]. unfold name_addr. apply firm_bind; [apply neat_moves, neat_optional, firm_neat, firm_phrase|]. intros. apply firm_then; [apply firm_angle_addr|]. intros. apply neat_ok.
Qed.
Lemma firm_commas : forall A (p : parser A) j, (forall j, firm (p j) j) -> firm (let* (i, a) := p j in let* (i, l) := many (prefixed p (bs ",")) i in Ok (i, a :: l)) j.
Proof.
  intros A p j H. apply firm_then; auto. intros r a. apply neat_bind; [|intros; apply neat_ok]. apply neat_many. intros i. apply neat_prefixed; [one_ink|]. intros. now apply firm_neat.
Qed.
Lemma firm_mailbox_list : forall E j, firm (mailbox_list E j) j.
Proof. intros. unfold mailbox_list. apply firm_commas, firm_mailbox. Qed.
Lemma firm_group : forall E j, firm (group E j) j.
Proof.
  intros E j. unfold group. apply firm_bind; [mvE sound_phrase|]. intros r n. tagged. apply firm_bind; [|intros; close].
  apply neat_moves. apply neat_attempt; [apply firm_neat, firm_mailbox_list|intros; apply neat_ok|]. apply neat_attempt; [apply neat_cfws|intros; apply neat_ok|apply neat_ok].
Qed.
Lemma firm_attempt : forall A B (x : res (bytes * A)) (k : bytes * A -> res (bytes * B)) f j, firm x j -> (forall r a, neat (k (r, a)) r) -> firm f j -> firm (attempt x k f) j.
Proof. intros A B x k f j Hx Hk Hf. destruct x as [[r a]|e|kk]; cbn [attempt]; auto. apply (firm_then _ _ (Ok (r, a)) k j Hx Hk). Qed.
Lemma firm_address : forall E j, firm (address E j) j.
Proof. intros. unfold address. apply firm_attempt; [apply firm_mailbox|intros; apply neat_ok|]. apply firm_attempt; [apply firm_group|intros; apply neat_ok|exact I]. Qed.
Lemma firm_address_list : forall E j, firm (address_list E j) j.
Proof. intros. unfold address_list. apply firm_commas, firm_address. Qed.
Lemma firm_message_id : forall E j, firm (message_id E j) j.
Proof.
  intros E j. unfold message_id. apply firm_bind; [apply ocfws_moves|]. intros. tagged. apply firm_bind; [apply neat_moves, firm_neat, firm_dot_atom_text|]. intros. tagged. apply firm_bind; [|intros; close].
  apply neat_moves, neat_match. each; [apply firm_neat, firm_dot_atom_text|]. unfold no_fold_litteral. apply neat_bind; [apply firm_neat; mark|]. intros. apply firm_neat, firm_bind.
  - eapply post_moves. apply (sound_take_while never is_dtext rfc_dtext _ dtext_spec dtext_ascii).
  - intros. apply firm_then; [mark|]. intros. apply neat_ok.
Qed.

(* ---- dates ---- *)
Lemma digits_ink : forall a b c v, (1 <= a)%nat -> rfc_digits a b c v -> ends_ink c.
Proof.
  intros a b c v H (H1 & H2 & _). apply (chars1_ink rfc_DIGIT); [unfold rfc_DIGIT, rfc_WSP; intros; lia|]. split; [|exact H2]. intros ->. cbn in H1. lia.
Qed.
Lemma firm_zone : forall E j, firm (zone E j) j.
Proof. intros. eapply (post_firm _ never); [apply sound_zone|]. intros c a [H _]. destruct H as [w v s c1 h c2 m _ _ H]. repeat apply ink_app. eapply digits_ink; [|exact H]. lia. Qed.
Lemma firm_date_time : forall E j, firm (date_time E j) j.
Proof.
  intros E j. unfold date_time. apply firm_bind; [mv sound_day_of_week|]. intros r d. apply firm_bind.
  { unfold date. apply moves_bind; [mvE sound_day|]. intros. apply moves_bind; [mv sound_month|]. intros. apply moves_bind; [mv sound_year|]. intros. now exists []. }
  intros. apply firm_then; [|intros; apply neat_bind; [apply neat_ocfws|]; intros; apply neat_ok].
  unfold time. apply firm_bind; [mvE sound_time_of_day|]. intros. apply firm_then; [apply firm_zone|]. intros. apply neat_ok.
Qed.

(* ---- values of headers ---- *)
Lemma neat_bcc_value : forall E j, neat (bcc_value E j) j.
Proof. intros. unfold bcc_value. apply neat_attempt; [apply firm_neat, firm_address_list|intros; apply neat_ok|]. apply neat_attempt; [apply neat_cfws|intros; apply neat_ok|exact I]. Qed.
Lemma neat_ids : forall E j, neat (many1 (message_id E) j) j.
Proof. intros. apply firm_neat, firm_many1, firm_message_id. Qed.
Lemma neat_keywords_value : forall E j, neat (keywords_value E j) j.
Proof. intros. unfold keywords_value. apply firm_neat, firm_commas, firm_phrase. Qed.
Lemma neat_return_path_value : forall E j, neat (return_path_value E j) j.
Proof.
  intros. unfold return_path_value. apply neat_match. each; apply neat_pmap; [apply firm_neat, firm_angle_addr|]. unfold empty_path. apply firm_neat. apply firm_bind; [apply ocfws_moves|]. intros. tagged.
  apply firm_bind; [apply ocfws_moves|]. intros. close.
Qed.
Lemma neat_received_value : forall E j, neat (received_value E j) j.
Proof.
  intros. unfold received_value. apply neat_bind; [|intros; apply neat_bind; [apply firm_neat; mark|]; intros; apply neat_bind; [apply firm_neat, firm_date_time|]; intros; apply neat_ok].
  apply neat_many. intros i. unfold received_token_parser.
  pose proof (firm_word i) as W. pose proof (firm_domain E i) as D. destruct (word i) as [[r w]|e|k]; cbn [attempt]; [|..|exact I].
  - apply firm_neat. destruct (domain E i) as [[r' d]|e|k]; cbn [attempt]; [destruct (_ <? _)%nat|..]; auto.
  - apply neat_attempt; [apply firm_neat, firm_angle_addr|intros; apply neat_ok|]. apply neat_attempt; [apply firm_neat, firm_addr_spec|intros; apply neat_ok|]. apply neat_attempt; [now apply firm_neat|intros; apply neat_ok|exact I].
Qed.

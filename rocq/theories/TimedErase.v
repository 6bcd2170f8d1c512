(* The counting parser of Timed.v returns what the parser returns. *)
From Verif Require Import Base Utf8 CharSets Combinators Whitespace QuotedString Common Time Address MimeFields Fields Message Email Timed.

Definition same {A} (x : timed A) (y : res A) : Prop := fst x = y.
Definition erases {A} (p : timed_parser A) (q : parser A) : Prop := forall i, same (p i) (q i).
Lemma same_ok : forall A (a : A), same (t_ok a) (Ok a).
Proof. reflexivity. Qed.
Lemma same_err : forall A e, same (@t_err A e) (Err e).
Proof. reflexivity. Qed.
Lemma same_step : forall A n (x : res A), same (t_step n x) x.
Proof. reflexivity. Qed.
Lemma same_bind : forall A B (x : timed A) y (k : A -> timed B) k', same x y -> (forall a, same (k a) (k' a)) -> same (t_bind x k) (bind y k').
Proof. intros A B [[a|e|c] n] y k k' <- H; cbn; [apply H|reflexivity..]. Qed.
Lemma same_attempt : forall A B (x : timed A) y (k : A -> timed B) k' f f', same x y -> (forall a, same (k a) (k' a)) -> same f f' -> same (t_attempt x k f) (attempt y k' f').
Proof. intros A B [[a|e|c] n] y k k' f f' <- H Hf; cbn; [apply H|exact Hf|reflexivity]. Qed.
Lemma same_map_err : forall A (x : timed A) y e, same x y -> same (t_map_err x e) (map_err y e).
Proof. intros A x y e <-. reflexivity. Qed.
(* t_starts_with, then a branch *)
Lemma same_test : forall A i p (x y : timed A) x' y', same x x' -> same y y' -> same (let+ b := t_starts_with i p in if b : bool then x else y) (if starts_with i p then x' else y').
Proof. intros A i p x y x' y' Hx Hy. unfold t_starts_with, t_step, t_bind, same in *. cbn [fst snd]. destruct (starts_with i p); assumption. Qed.
Lemma same_concat : forall A a b (k : bytes -> timed A) y, same (k (a ++ b)) y -> same (let+ s := t_concat a b in k s) y.
Proof. intros A a b k y H. exact H. Qed.
Lemma same_step_bind : forall A B n (a : A) (k : A -> timed B) y, same (k a) y -> same (t_bind (t_step n (Ok a)) k) y.
Proof. intros A B n a k y H. exact H. Qed.
(* applied down to the leaves; the database holds the parsers already done *)
Create HintDb erase discriminated.
Ltac pairs := repeat match goal with x : (_ * _)%type |- _ => destruct x end.
Ltac era :=
  lazymatch goal with
  | |- same (t_ok _) _ => apply same_ok
  | |- same (t_err _) _ => apply same_err
  | |- same (t_step _ _) _ => apply same_step
  | |- same (t_bind (t_starts_with _ _) _) _ => apply same_test; era
  | |- same (t_bind (t_concat _ _) _) _ => apply same_concat; era
  | |- same (t_bind _ _) _ => apply same_bind; [era|let a := fresh "a" in intros a; pairs; era]
  | |- same (t_attempt _ _ _) _ => apply same_attempt; [era|let a := fresh "a" in intros a; pairs; era|era]
  | |- same (t_map_err _ _) _ => apply same_map_err; era
  | |- same (if ?b then _ else _) _ => destruct b; era
  | |- same (match ?o with Some _ => _ | None => _ end) _ => destruct o; pairs; era
  | H : erases ?p ?q |- same (?p ?i) (?q ?i) => exact (H i)
  | |- _ => idtac
  end.

Lemma e_tag : forall e m, erases (t_tag e m) (tag e m).
Proof. easy. Qed.
Lemma e_tag_no_case : forall E e1 e2 m, erases (t_tag_no_case E e1 e2 m) (tag_no_case E e1 e2 m).
Proof. easy. Qed.
Lemma e_optional : forall A (p : timed_parser A) q, erases p q -> erases (t_optional p) (optional q).
Proof. intros A p q H i. unfold t_optional, optional. era; auto. Qed.
Lemma e_match_nil : forall A, erases (@t_match_parsers A []) (match_parsers []).
Proof. easy. Qed.
Lemma e_match_cons : forall A (p : timed_parser A) q ps qs, erases p q -> erases (t_match_parsers ps) (match_parsers qs) -> erases (t_match_parsers (p :: ps)) (match_parsers (q :: qs)).
Proof. intros A p q ps qs H Hs i. cbn [t_match_parsers match_parsers]. era. Qed.
Lemma e_take_while : forall f, erases (t_take_while f) (take_while f).
Proof. easy. Qed.
Lemma e_take_while1 : forall f, erases (t_take_while1 f) (take_while1 f).
Proof. easy. Qed.
Lemma e_many_fuel : forall A (p : timed_parser A) q n, erases p q -> erases (t_many_fuel n p) (many_fuel n q).
Proof. intros A p q n H. induction n as [|n IH]; intros i; [reflexivity|]. cbn [t_many_fuel many_fuel]. apply same_step_bind. era; auto. Qed.
Lemma e_many : forall A (p : timed_parser A) q, erases p q -> erases (t_many p) (many q).
Proof. intros A p q H i. now apply e_many_fuel. Qed.
Lemma e_ignore_many : forall A (p : timed_parser A) q, erases p q -> erases (t_ignore_many p) (ignore_many q).
Proof. intros A p q H i. unfold t_ignore_many, ignore_many. era; now apply e_many. Qed.
Lemma e_many1 : forall A (p : timed_parser A) q, erases p q -> erases (t_many1 p) (many1 q).
Proof. intros A p q H i. unfold t_many1, many1. era. now apply e_many. Qed.
Lemma e_collect_many : forall p q, erases p q -> erases (t_collect_many p) (collect_many q).
Proof. intros p q H i. unfold t_collect_many, collect_many. era; now apply e_many. Qed.
Lemma e_pair : forall A B (p : timed_parser A) p' (q : timed_parser B) q', erases p p' -> erases q q' -> erases (t_pair_p p q) (pair_p p' q').
Proof. intros A B p p' q q' H H' i. unfold t_pair_p, pair_p. era. Qed.
Lemma e_collect_pair : forall p p' q q', erases p p' -> erases q q' -> erases (t_collect_pair p q) (collect_pair p' q').
Proof. intros p p' q q' H H' i. unfold t_collect_pair, collect_pair. era. Qed.
Lemma e_prefixed : forall A (p : timed_parser A) q x, erases p q -> erases (t_prefixed p x) (prefixed q x).
Proof. intros A p q x H i. unfold t_prefixed, prefixed. era; auto. Qed.
Lemma e_pmap : forall A B (f : A -> B) p q, erases p q -> erases (t_pmap f p) (pmap f q).
Proof. intros A B f p q H i. unfold t_pmap, pmap. era; auto. Qed.
Ltac leaf := first [apply e_tag|apply e_tag_no_case|apply e_take_while|apply e_take_while1|apply e_match_nil|assumption].
Ltac comb :=
  lazymatch goal with
  | |- erases (t_optional _) _ => apply e_optional; comb
  | |- erases (t_match_parsers (_ :: _)) _ => apply e_match_cons; [comb|comb]
  | |- erases (t_many _) _ => apply e_many; comb
  | |- erases (t_ignore_many _) _ => apply e_ignore_many; comb
  | |- erases (t_many1 _) _ => apply e_many1; comb
  | |- erases (t_collect_many _) _ => apply e_collect_many; comb
  | |- erases (t_pair_p _ _) _ => apply e_pair; comb
  | |- erases (t_prefixed _ _) _ => apply e_prefixed; comb
  | |- erases (t_pmap _ _) _ => apply e_pmap; comb
  | |- erases _ _ => first [leaf|solve [eauto 1 with erase nocore]|idtac]
  end.
Ltac go :=
  lazymatch goal with
  | |- same (t_ok _) _ => apply same_ok
  | |- same (t_err _) _ => apply same_err
  | |- same (t_step _ _) _ => apply same_step
  | |- same (t_bind (t_starts_with _ _) _) _ => apply same_test; go
  | |- same (t_bind (t_concat _ _) _) _ => apply same_concat; go
  | |- same (t_bind _ _) _ => apply same_bind; [go|let a := fresh "a" in intros a; repeat match goal with x : (_ * _)%type |- _ => destruct x end; go]
  | |- same (t_attempt _ _ _) _ => apply same_attempt; [go|let a := fresh "a" in intros a; repeat match goal with x : (_ * _)%type |- _ => destruct x end; go|go]
  | |- same (t_map_err _ _) _ => apply same_map_err; go
  | |- same (if ?b then _ else _) _ => destruct b; go
  | |- same (match ?o with Some _ => _ | None => _ end) _ => destruct o; repeat match goal with x : (_ * _)%type |- _ => destruct x end; go
  | |- same (?p ?i) (?q ?i) => let H := fresh in assert (H : erases p q); [comb|exact (H i)]
  end.
Tactic Notation "erase" reference(a) reference(b) := intros; let i := fresh "i" in intros i; unfold a, b; go.
Lemma e_quoted_pair : erases t_quoted_pair quoted_pair.
Proof. easy. Qed.
#[global] Hint Resolve e_quoted_pair : erase.
Lemma e_fws : erases t_fws fws.
Proof. erase t_fws fws. Qed.
#[global] Hint Resolve e_fws : erase.
Lemma e_comment_d : forall d, erases (t_comment_d d) (comment_d d).
Proof. induction d as [|d IH]; [easy|]. intros i. cbn [t_comment_d comment_d]. go. Qed.
Lemma e_comment : erases t_comment comment.
Proof. intros i. apply e_comment_d. Qed.
#[global] Hint Resolve e_comment : erase.
Lemma e_fws_comment : erases t_fws_comment fws_comment.
Proof. erase t_fws_comment fws_comment. Qed.
#[global] Hint Resolve e_fws_comment : erase.
Lemma e_real_cfws : erases t_real_cfws real_cfws.
Proof. erase t_real_cfws real_cfws. Qed.
#[global] Hint Resolve e_real_cfws : erase.
Lemma e_cfws : erases t_cfws cfws.
Proof. unfold t_cfws, cfws. comb. Qed.
#[global] Hint Resolve e_cfws : erase.
Lemma e_skip_cfws : erases (fun i => let+ r := t_skip_cfws i in t_ok (r, tt)) (fun i => let* r := skip_cfws i in Ok (r, tt)).
Proof. intros i. unfold t_skip_cfws, skip_cfws. go. Qed.
Lemma same_skip : forall i, same (t_skip_cfws i) (skip_cfws i).
Proof. intros i. unfold t_skip_cfws, skip_cfws. go. Qed.
Ltac go ::=
  lazymatch goal with
  | |- same (t_skip_cfws _) _ => apply same_skip
  | |- same (t_ok _) _ => apply same_ok
  | |- same (t_err _) _ => apply same_err
  | |- same (t_step _ _) _ => apply same_step
  | |- same (t_bind (t_starts_with _ _) _) _ => apply same_test; go
  | |- same (t_bind (t_concat _ _) _) _ => apply same_concat; go
  | |- same (t_bind _ _) _ => apply same_bind; [go|let a := fresh "a" in intros a; pairs; go]
  | |- same (t_attempt _ _ _) _ => apply same_attempt; [go|let a := fresh "a" in intros a; pairs; go|go]
  | |- same (t_map_err _ _) _ => apply same_map_err; go
  | |- same (match ?o with Some _ => _ | None => _ end) _ => destruct o; pairs; go
  | |- same (if ?b then _ else _) _ => destruct b; go
  | |- same (?p ?i) (?q ?i) => let H := fresh in assert (H : erases p q); [comb|exact (H i)]
  end.
Lemma e_quoted_string_step : erases t_quoted_string_step quoted_string_step.
Proof. erase t_quoted_string_step quoted_string_step. Qed.
#[global] Hint Resolve e_quoted_string_step : erase.
Lemma e_quoted_string : erases t_quoted_string quoted_string.
Proof. erase t_quoted_string quoted_string. Qed.
#[global] Hint Resolve e_quoted_string : erase.
Lemma e_atom : erases t_atom atom.
Proof. erase t_atom atom. Qed.
#[global] Hint Resolve e_atom : erase.
Lemma e_dot_atom_step : forall E, erases (t_dot_atom_step E) (dot_atom_step E).
Proof. erase t_dot_atom_step dot_atom_step. Qed.
#[global] Hint Resolve e_dot_atom_step : erase.
Lemma e_dot_atom_text : forall E, erases (t_dot_atom_text E) (dot_atom_text E).
Proof. erase t_dot_atom_text dot_atom_text. Qed.
#[global] Hint Resolve e_dot_atom_text : erase.
Lemma e_dot_atom : forall E, erases (t_dot_atom E) (dot_atom E).
Proof. erase t_dot_atom dot_atom. Qed.
#[global] Hint Resolve e_dot_atom : erase.
Lemma e_word : erases t_word word.
Proof. unfold t_word, word. comb. Qed.
#[global] Hint Resolve e_word : erase.
Lemma e_phrase : forall E, f_mime E = false -> erases t_phrase (phrase E).
Proof. intros E H. unfold t_phrase, phrase, phrase_word. rewrite H. comb. Qed.
#[global] Hint Resolve e_phrase : erase.
Lemma e_unstructured_step : erases t_unstructured_step unstructured_step.
Proof. intros i. unfold t_unstructured_step, unstructured_step. apply e_collect_pair; [|apply e_take_while1]. intros j. go. Qed.
#[global] Hint Resolve e_unstructured_step : erase.
Lemma e_unstructured : erases t_unstructured unstructured.
Proof. erase t_unstructured unstructured. Qed.
#[global] Hint Resolve e_unstructured : erase.
Lemma e_no_fold_litteral : erases t_no_fold_litteral no_fold_litteral.
Proof. erase t_no_fold_litteral no_fold_litteral. Qed.
#[global] Hint Resolve e_no_fold_litteral : erase.
Lemma e_message_id : forall E, erases (t_message_id E) (message_id E).
Proof. erase t_message_id message_id. Qed.
#[global] Hint Resolve e_message_id : erase.
Lemma e_local_part : forall E, erases (t_local_part E) (local_part E).
Proof. intros E. unfold t_local_part, local_part. comb. Qed.
#[global] Hint Resolve e_local_part : erase.
Lemma e_domain_literal_step : erases t_domain_literal_step domain_literal_step.
Proof. erase t_domain_literal_step domain_literal_step. Qed.
#[global] Hint Resolve e_domain_literal_step : erase.
Lemma e_domain_literal : erases t_domain_literal domain_literal.
Proof. erase t_domain_literal domain_literal. Qed.
#[global] Hint Resolve e_domain_literal : erase.
Lemma e_domain : forall E, erases (t_domain E) (domain E).
Proof. intros E. unfold t_domain, domain. comb. Qed.
#[global] Hint Resolve e_domain : erase.
Lemma e_addr_spec : forall E, erases (t_addr_spec E) (addr_spec E).
Proof. erase t_addr_spec addr_spec. Qed.
#[global] Hint Resolve e_addr_spec : erase.
Lemma e_angle_addr : forall E, erases (t_angle_addr E) (angle_addr E).
Proof. erase t_angle_addr angle_addr. Qed.
#[global] Hint Resolve e_angle_addr : erase.
Lemma e_day_name : erases t_day_name day_name.
Proof. easy. Qed.
#[global] Hint Resolve e_day_name : erase.
Lemma e_month : erases t_month month.
Proof. easy. Qed.
#[global] Hint Resolve e_month : erase.
Lemma e_digit : erases t_digit digit.
Proof. easy. Qed.
#[global] Hint Resolve e_digit : erase.
Lemma e_two_digits : forall E, erases (t_two_digits E) (two_digits E).
Proof. easy. Qed.
#[global] Hint Resolve e_two_digits : erase.
Lemma e_day_of_week : erases t_day_of_week day_of_week.
Proof. erase t_day_of_week day_of_week. Qed.
#[global] Hint Resolve e_day_of_week : erase.
Lemma e_year : erases t_year year.
Proof. erase t_year year. Qed.
#[global] Hint Resolve e_year : erase.
Lemma e_day : forall E, erases (t_day E) (day E).
Proof. erase t_day day. Qed.
#[global] Hint Resolve e_day : erase.
Lemma e_time_of_day : forall E, erases (t_time_of_day E) (time_of_day E).
Proof. easy. Qed.
#[global] Hint Resolve e_time_of_day : erase.
Lemma e_zone : forall E, erases (t_zone E) (zone E).
Proof. erase t_zone zone. Qed.
#[global] Hint Resolve e_zone : erase.
Lemma e_time : forall E, erases (t_time E) (time E).
Proof. erase t_time time. Qed.
#[global] Hint Resolve e_time : erase.
Lemma e_date : forall E, erases (t_date E) (date E).
Proof. erase t_date date. Qed.
#[global] Hint Resolve e_date : erase.
Lemma e_date_time : forall E, erases (t_date_time E) (date_time E).
Proof. erase t_date_time date_time. Qed.
#[global] Hint Resolve e_date_time : erase.
Lemma e_header : forall A E e1 e2 m (p : timed_parser A) q m', erases p q -> erases (t_header E e1 e2 m p m') (header E e1 e2 m q m').
Proof. intros A E e1 e2 m p q m' H i. unfold t_header, header. go. Qed.
Lemma e_resent : forall A E m (p : timed_parser A) q, erases p q -> erases (t_resent E m p) (resent E m q).
Proof. intros A E m p q H i. unfold t_resent, resent. go. Qed.
Ltac comb ::=
  lazymatch goal with
  | |- erases (t_optional _) _ => apply e_optional; comb
  | |- erases (t_match_parsers (_ :: _)) _ => apply e_match_cons; [comb|comb]
  | |- erases (t_many _) _ => apply e_many; comb
  | |- erases (t_ignore_many _) _ => apply e_ignore_many; comb
  | |- erases (t_many1 _) _ => apply e_many1; comb
  | |- erases (t_collect_many _) _ => apply e_collect_many; comb
  | |- erases (t_pair_p _ _) _ => apply e_pair; comb
  | |- erases (t_prefixed _ _) _ => apply e_prefixed; comb
  | |- erases (t_pmap _ _) _ => apply e_pmap; comb
  | |- erases (t_header _ _ _ _ _ _) _ => apply e_header; comb
  | |- erases (t_resent _ _ _) _ => apply e_resent; comb
  | |- erases _ _ => first [leaf|solve [eauto 2 with erase nocore]|idtac]
  end.
Section Plain.
Variable E : env.
Hypothesis HM : f_mime E = false.
Lemma e_name_addr : erases (t_name_addr E) (name_addr E).
Proof. intros i. unfold t_name_addr, name_addr. go. Qed.
Hint Resolve e_name_addr : erase.
Lemma e_mailbox : erases (t_mailbox E) (mailbox E).
Proof. unfold t_mailbox, mailbox. comb. Qed.
Hint Resolve e_mailbox : erase.
Lemma e_mailbox_list : erases (t_mailbox_list E) (mailbox_list E).
Proof. intros i. unfold t_mailbox_list, mailbox_list. go. Qed.
Hint Resolve e_mailbox_list : erase.
Lemma e_group : erases (t_group E) (group E).
Proof. intros i. unfold t_group, group. go. Qed.
Hint Resolve e_group : erase.
Lemma e_address : erases (t_address E) (address E).
Proof. intros i. unfold t_address, address. go. Qed.
Hint Resolve e_address : erase.
Lemma e_address_list : erases (t_address_list E) (address_list E).
Proof. intros i. unfold t_address_list, address_list. go. Qed.
Hint Resolve e_address_list : erase.
Lemma e_field_date : erases (t_field_date E) (field_date E).
Proof. unfold t_field_date, field_date. comb. Qed.
Hint Resolve e_field_date : erase.
Lemma e_field_from : erases (t_field_from E) (field_from E).
Proof. unfold t_field_from, field_from. comb. Qed.
Hint Resolve e_field_from : erase.
Lemma e_field_sender : erases (t_field_sender E) (field_sender E).
Proof. unfold t_field_sender, field_sender. comb. Qed.
Hint Resolve e_field_sender : erase.
Lemma e_field_reply_to : erases (t_field_reply_to E) (field_reply_to E).
Proof. unfold t_field_reply_to, field_reply_to. comb. Qed.
Hint Resolve e_field_reply_to : erase.
Lemma e_field_to : erases (t_field_to E) (field_to E).
Proof. unfold t_field_to, field_to. comb. Qed.
Hint Resolve e_field_to : erase.
Lemma e_field_cc : erases (t_field_cc E) (field_cc E).
Proof. unfold t_field_cc, field_cc. comb. Qed.
Hint Resolve e_field_cc : erase.
Lemma e_bcc_value : erases (t_bcc_value E) (bcc_value E).
Proof. intros i. unfold t_bcc_value, bcc_value. go. Qed.
Hint Resolve e_bcc_value : erase.
Lemma e_field_bcc : erases (t_field_bcc E) (field_bcc E).
Proof. unfold t_field_bcc, field_bcc. comb. Qed.
Hint Resolve e_field_bcc : erase.
Lemma e_field_message_id : erases (t_field_message_id E) (field_message_id E).
Proof. unfold t_field_message_id, field_message_id. comb. Qed.
Hint Resolve e_field_message_id : erase.
Lemma e_field_in_reply_to : erases (t_field_in_reply_to E) (field_in_reply_to E).
Proof. unfold t_field_in_reply_to, field_in_reply_to. comb. Qed.
Hint Resolve e_field_in_reply_to : erase.
Lemma e_field_references : erases (t_field_references E) (field_references E).
Proof. unfold t_field_references, field_references. comb. Qed.
Hint Resolve e_field_references : erase.
Lemma e_text : erases t_unstructured (text_value E).
Proof. unfold text_value. rewrite HM. apply e_unstructured. Qed.
Hint Resolve e_text : erase.
Lemma e_field_subject : erases (t_field_subject E) (field_subject E).
Proof. unfold t_field_subject, field_subject. comb. Qed.
Hint Resolve e_field_subject : erase.
Lemma e_field_comments : erases (t_field_comments E) (field_comments E).
Proof. unfold t_field_comments, field_comments. comb. Qed.
Hint Resolve e_field_comments : erase.
Lemma e_keywords_value : erases (t_keywords_value) (keywords_value E).
Proof. intros i. unfold t_keywords_value, keywords_value. go. Qed.
Hint Resolve e_keywords_value : erase.
Lemma e_field_keywords : erases (t_field_keywords E) (field_keywords E).
Proof. unfold t_field_keywords, field_keywords. comb. Qed.
Hint Resolve e_field_keywords : erase.
Lemma e_resent_field : erases (t_resent_field E) (resent_field E).
Proof. unfold t_resent_field, resent_field. comb. Qed.
Hint Resolve e_resent_field : erase.
Lemma e_empty_path : erases t_empty_path empty_path.
Proof. erase t_empty_path empty_path. Qed.
Hint Resolve e_empty_path : erase.
Lemma e_return_path_value : erases (t_return_path_value E) (return_path_value E).
Proof. unfold t_return_path_value, return_path_value. comb. Qed.
Hint Resolve e_return_path_value : erase.
Lemma e_return_path : erases (t_return_path E) (return_path E).
Proof. unfold t_return_path, return_path. comb. Qed.
Hint Resolve e_return_path : erase.
Lemma e_received_token_parser : erases (t_received_token_parser E) (received_token_parser E).
Proof. intros i. unfold t_received_token_parser, received_token_parser. go. Qed.
Hint Resolve e_received_token_parser : erase.
Lemma e_received_value : erases (t_received_value E) (received_value E).
Proof. intros i. unfold t_received_value, received_value. go. Qed.
Hint Resolve e_received_value : erase.
Lemma e_received : erases (t_received E) (received E).
Proof. unfold t_received, received. comb. Qed.
Hint Resolve e_received : erase.
Lemma e_trace : erases (t_trace E) (trace E).
Proof. intros i. unfold t_trace, trace. go. Qed.
Hint Resolve e_trace : erase.
Hypothesis HU : f_unrecognized_headers E = false.
Lemma e_unknown : erases t_unknown (unknown E).
Proof. intros i. unfold t_unknown, unknown. rewrite HU. go. Qed.
Hint Resolve e_unknown : erase.
Lemma e_trace_block : erases (t_trace_block E) (trace_block E).
Proof. intros i. unfold t_trace_block, trace_block. go. Qed.
Hint Resolve e_trace_block : erase.
Lemma e_cfg : forall A b (p : timed_parser A) q ps qs, erases p q -> erases (t_match_parsers ps) (match_parsers qs) -> erases (t_match_parsers (t_cfg b p ++ ps)) (match_parsers (cfg b q ++ qs)).
Proof. intros A [|] p q ps qs H Hs; [now apply e_match_cons|exact Hs]. Qed.
Lemma e_any_field : erases (t_any_field E) (any_field E).
Proof.
  unfold t_any_field, any_field, t_field_parsers, field_parsers. rewrite HM.
  repeat (apply e_cfg; [comb|]). cbn [cfg app]. apply e_cfg; [comb|]. comb.
Qed.
Hint Resolve e_any_field : erase.
Lemma e_fields : erases (t_fields E) (fields E).
Proof. intros i. unfold t_fields, fields. go. Qed.
Lemma e_body_loop : forall n i, same (t_body_loop n i) (body_loop n i).
Proof.
  induction n as [|n IH]; intros i; [reflexivity|]. cbn [t_body_loop body_loop]. apply same_bind; [reflexivity|]. intros [i' u].
  destruct (tag CRLF _ i') as [[j []]|e|c]; [exact (IH j)|reflexivity|reflexivity].
Qed.
Lemma e_body : forall i, same (t_body i) (body i).
Proof.
  intros [|c r]; [reflexivity|]. unfold t_body, body. apply same_bind; [reflexivity|]. intros [i' u]. apply same_bind; [apply e_body_loop|]. intros _. go.
Qed.
Lemma e_parse_message : forall i, same (t_parse_message E i) (parse_message E i).
Proof. intros i. unfold t_parse_message, parse_message. rewrite HM. apply same_bind; [apply e_fields|]. intros [j fs]. apply same_bind; [apply e_body|]. intros b. apply same_ok. Qed.
Theorem t_parse_erases : forall d, fst (t_parse E d) = parse E d.
Proof. intros d. change (same (t_parse E d) (parse E d)). unfold t_parse, parse. apply same_bind; [apply e_parse_message|]. intros [fs b]. apply same_bind; [reflexivity|]. intros a. reflexivity. Qed.
End Plain.

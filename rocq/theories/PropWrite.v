(* Properties C24, C27, C28, C29, C31: what is written is read back. *)
From Coq Require Import Lia.
From Verif Require Import Base Utf8 Combinators QuotedString Common Time Address MimeFields Fields Envs EnvOk Rfc5322 CompleteFields Writers WriteFacts WriteAddr WriteRest.
Ltac compute_all := lazymatch goal with |- _ /\ _ => split; compute_all | _ => vm_compute; reflexivity end.
Ltac chars_ok := apply Forall_forall; let x := fresh in let H := fresh in intros x H; vm_compute in H;
  unfold printable, rfc_VCHAR, rfc_WSP, rfc_atext, rfc_ALPHA, rfc_DIGIT, rfc_dtext; cbn [In]; lia.

(* ---- C24: dates ---- *)
Theorem C24_dates_back : forall E n c d i, same_nocase n (bs "Date") -> written_date c d -> date_in_range d -> no_blank i ->
  field_date E (n ++ bs ": " ++ c ++ CRLF ++ i) = Ok (i, d).
Proof. exact date_read. Qed.
Print Assumptions C24_dates_back.
Theorem C24_every_date_written : forall d, date_in_range d -> exists c, written_date c d.
Proof. exact some_date. Qed.
Print Assumptions C24_every_date_written.
Definition a_date : date_time_t :=
  {| dt_day_name := Some Friday; dt_date := {| d_day := 5; d_month := May; d_year := 18446744073709551615 |};
     dt_time := {| tz_time := {| t_hour := 0; t_minute := 58; t_second := 60 |}; tz_zone := {| z_sign := false; z_hour_offset := 99; z_minute_offset := 59 |} |} |}%N.
Example C24_example : date_in_range a_date /\ written_date (bs "fRI, 05 mAY 18446744073709551615 00:58:60 -9959") a_date
  /\ field_date env_default (bs "Date" ++ bs ": " ++ bs "fRI, 05 mAY 18446744073709551615 00:58:60 -9959" ++ CRLF ++ []) = Ok ([], a_date).
Proof.
  split; [unfold date_in_range; cbn; lia|]. split; [|vm_compute; reflexivity].
  apply (written_date_intro (bs "fRI, ") (Some Friday) 2 5 (bs "May") (bs "mAY") May 20 18446744073709551615 0 58 (bs ":60") 60 false 99 59); try (vm_compute; reflexivity); try lia.
  - apply (some_day_name (bs "Fri") (bs "fRI") Friday); [cbn; tauto|reflexivity].
  - cbn; tauto.
  - apply (some_second 60).
Qed.

(* ---- C27: addresses ---- *)
Theorem C27_from_back : forall E n c l i, same_nocase n (bs "From") -> written_list written_mailbox c l -> no_blank i ->
  field_from E (n ++ bs ": " ++ c ++ CRLF ++ i) = Ok (i, l).
Proof. exact from_read. Qed.
Print Assumptions C27_from_back.
Theorem C27_sender_back : forall E n c m i, same_nocase n (bs "Sender") -> written_mailbox c m -> no_blank i ->
  field_sender E (n ++ bs ": " ++ c ++ CRLF ++ i) = Ok (i, m).
Proof. exact sender_read. Qed.
Print Assumptions C27_sender_back.
Theorem C27_to_back : forall E n c l i, same_nocase n (bs "To") -> written_list written_recipient c l -> no_blank i ->
  field_to E (n ++ bs ": " ++ c ++ CRLF ++ i) = Ok (i, l).
Proof. exact to_read. Qed.
Print Assumptions C27_to_back.
Theorem C27_cc_back : forall E n c l i, same_nocase n (bs "Cc") -> written_list written_recipient c l -> no_blank i ->
  field_cc E (n ++ bs ": " ++ c ++ CRLF ++ i) = Ok (i, l).
Proof. exact cc_read. Qed.
Print Assumptions C27_cc_back.
Theorem C27_bcc_back : forall E n c l i, same_nocase n (bs "Bcc") -> written_list written_recipient c l -> no_blank i ->
  field_bcc E (n ++ bs ": " ++ c ++ CRLF ++ i) = Ok (i, l).
Proof. exact bcc_read. Qed.
Print Assumptions C27_bcc_back.
Theorem C27_reply_to_back : forall E n c l i, same_nocase n (bs "Reply-To") -> written_list written_recipient c l -> no_blank i ->
  field_reply_to E (n ++ bs ": " ++ c ++ CRLF ++ i) = Ok (i, l).
Proof. exact reply_to_read. Qed.
Print Assumptions C27_reply_to_back.
(* any names and local parts of printable characters, any domains of domain-literal characters *)
Theorem C27_every_mailbox_written : forall l, l <> [] -> Forall writable_mailbox l -> exists c, written_list written_mailbox c l.
Proof. exact some_mailboxes. Qed.
Print Assumptions C27_every_mailbox_written.
Theorem C27_every_recipient_written : forall l, l <> [] -> Forall writable_recipient l -> exists c, written_list written_recipient c l.
Proof. exact some_recipients. Qed.
Print Assumptions C27_every_recipient_written.
Definition mary : mailbox_t := {| m_name := Some [bs "Mary"; bs "O""Neil, PhD"]; m_address := {| a_local_part := bs "m o@x"; a_domain := bs "x.org" |} |}.
Definition bob : mailbox_t := {| m_name := None; m_address := {| a_local_part := bs "bob.b"; a_domain := bs "::1" |} |}.
Definition mary_text : bytes := bs "Mary ""O\""Neil, PhD"" <""m o@x""@x.org>".
Definition bob_text : bytes := bs "bob.b@[::1]".
Example C27_example : written_list written_mailbox (mary_text ++ bs ", " ++ bob_text) [mary; bob]
  /\ written_recipient (bs "staff: " ++ bob_text ++ bs ";") (AGroup ([bs "staff"], [bob]))
  /\ field_from env_default (bs "From" ++ bs ": " ++ (mary_text ++ bs ", " ++ bob_text) ++ CRLF ++ bs "X") = Ok (bs "X", [mary; bob])
  /\ field_to env_default (bs "To" ++ bs ": " ++ (bs "staff: " ++ bob_text ++ bs ";") ++ CRLF ++ []) = Ok ([], [AGroup ([bs "staff"], [bob])]).
Proof.
  assert (B : written_mailbox bob_text bob).
  { apply plain_mailbox. apply (written_address_intro (bs "bob.b") (bs "bob.b") (bs "[::1]") (bs "::1")); [|apply (literal_domain (bs "::1")); chars_ok].
    apply bare_local; [|discriminate]. apply (dot_atom_text_intro _ (bs "bob") (bs ".b")); [split; [discriminate|chars_ok]|].
    apply (dot_tail_cons _ (bs "b") []); [chars_ok|right; discriminate|constructor]. }
  split; [|split; [|split; vm_compute; reflexivity]].
  - apply list_more; [|now apply list_one].
    apply (named_mailbox (bs "Mary ""O\""Neil, PhD""") _ (bs """m o@x""@x.org")).
    + apply (words_more (bs "Mary") (bs "Mary") (bs """O\""Neil, PhD""")); [apply bare_word; [split; [discriminate|chars_ok]|discriminate]|].
      apply words_one. apply (escaped_word (bs "O""Neil, PhD")). chars_ok.
    + apply (written_address_intro (bs """m o@x""") (bs "m o@x") (bs "x.org") (bs "x.org")).
      * apply (quoted_local (bs "m o@x")). apply (escaped_quoting (bs "m o@x")). chars_ok.
      * apply bare_domain. apply (dot_atom_text_intro _ (bs "x") (bs ".org")); [split; [discriminate|chars_ok]|].
        apply (dot_tail_cons _ (bs "org") []); [chars_ok|right; discriminate|constructor].
  - apply (group_recipient (bs "staff") _ bob_text); [|now apply list_one]. apply words_one. apply bare_word; [split; [discriminate|chars_ok]|discriminate].
Qed.

(* ---- C28: quoted strings ---- *)
Theorem C28_quoted_strings_back : forall b v i, quoting b v -> delimited [] i -> quoted_string ([34%N] ++ b ++ [34%N] ++ i) = Ok (i, v).
Proof. exact quoted_back. Qed.
Print Assumptions C28_quoted_strings_back.
Theorem C28_every_text_quoted : forall v, chars printable v -> quoting (escaped v) v.
Proof. exact escaped_quoting. Qed.
Print Assumptions C28_every_text_quoted.
Example C28_example : quoting (bs "a\\\b ") (bs "a\b ") /\ delimited [] (bs "@x") /\ escaped (bs "\""") = bs "\\\"""
  /\ quoted_string ([34%N] ++ bs "a\\\b " ++ [34%N] ++ bs "@x") = Ok (bs "@x", bs "a\b ").
Proof.
  split; [|split; [apply (delimited_char [] 64%N (bs "x")); [unfold rfc_VCHAR; lia|lia]|compute_all]].
  apply (quoting_plain 97%N (bs "\\\b ") (bs "\b ")); [unfold printable, rfc_VCHAR; lia|lia|lia|].
  apply (quoting_pair 92%N (bs "\b ") (bs "b ")); [unfold printable, rfc_VCHAR; lia|].
  apply (quoting_pair 98%N (bs " ") (bs " ")); [unfold printable, rfc_VCHAR; lia|].
  apply (quoting_plain 32%N [] []); [unfold printable, rfc_WSP; lia|lia|lia|constructor].
Qed.

(* ---- C29: comments and folding around tokens ---- *)
Theorem C29_atom : forall l a r i, rfc_oCFWS l -> chars1 rfc_atext a -> rfc_oCFWS r -> delimited r i -> (r = [] -> no_dot_atom i) ->
  atom (l ++ a ++ r ++ i) = Ok (i, a).
Proof. exact atom_anywhere. Qed.
Print Assumptions C29_atom.
Theorem C29_dot_atom : forall E l a r i, rfc_oCFWS l -> rfc_dot_atom_text (f_compatibility_fixes E) a -> rfc_oCFWS r -> delimited r i ->
  (r = [] -> no_dot_atom i) -> dot_atom E (l ++ a ++ r ++ i) = Ok (i, a).
Proof. exact dot_atom_anywhere. Qed.
Print Assumptions C29_dot_atom.
Theorem C29_quoted_string : forall l b v r i, rfc_oCFWS l -> quoting b v -> rfc_oCFWS r -> delimited r i ->
  quoted_string (l ++ [34%N] ++ b ++ [34%N] ++ r ++ i) = Ok (i, v).
Proof. exact quoted_anywhere. Qed.
Print Assumptions C29_quoted_string.
Theorem C29_message_id : forall E l c v r i, rfc_oCFWS l -> written_id c v -> rfc_oCFWS r -> delimited r i ->
  message_id E (l ++ c ++ r ++ i) = Ok (i, v).
Proof. exact id_anywhere. Qed.
Print Assumptions C29_message_id.
Definition noise : bytes := bs " (a (\)) " ++ CRLF ++ bs " b)" ++ CRLF ++ bs " ".
Example C29_example : rfc_oCFWS noise /\ delimited noise (CRLF ++ bs "To:") /\ delimited noise (bs "@b")
  /\ atom (noise ++ bs "x" ++ noise ++ CRLF ++ bs "To:") = Ok (CRLF ++ bs "To:", bs "x")
  /\ dot_atom env_default (noise ++ bs "x.y" ++ noise ++ bs "@b") = Ok (bs "@b", bs "x.y")
  /\ message_id env_default (noise ++ bs "<a@b>" ++ noise ++ CRLF ++ bs "To:") = Ok (CRLF ++ bs "To:", (bs "a", bs "b")).
Proof.
  assert (F : rfc_oFWS [] []) by constructor. assert (W : rfc_oFWS (bs " ") (bs " ")) by (apply blanks_oFWS, blank1).
  split.
  { apply oCFWS_some. apply (CFWS_comments (bs " (a (\)) " ++ CRLF ++ bs " b)") (CRLF ++ bs " ") (bs " ")).
    - apply (comments_one (bs " ") (bs " ") (bs "(a (\)) " ++ CRLF ++ bs " b)")); auto. apply (comment_intro (bs "a (\)) " ++ CRLF ++ bs " b")).
      apply (cbody_cons [] [] (bs "a") (bs " (\)) " ++ CRLF ++ bs " b")); auto; [apply (ccontent_text 97%N); unfold rfc_ctext; lia|].
      apply (cbody_cons (bs " ") (bs " ") (bs "(\))") (bs " " ++ CRLF ++ bs " b")); auto.
      + apply ccontent_comment. apply (comment_intro (bs "\)")). apply (cbody_cons [] [] (bs "\)") []); auto; [|now apply (cbody_end [] [])].
        apply (ccontent_pair (bs "\)") 41%N). constructor. left. unfold rfc_VCHAR. lia.
      + apply (cbody_cons (bs " " ++ CRLF ++ bs " ") (bs "  ") (bs "b") []); auto; [|apply (ccontent_text 98%N); unfold rfc_ctext; lia|now apply (cbody_end [] [])].
        apply oFWS_some. apply (FWS_fold (bs " ") (bs " ")); [apply blank1|split; [discriminate|apply blank1]].
    - apply oFWS_some. apply (FWS_fold [] (bs " ")); [constructor|split; [discriminate|apply blank1]]. }
  split.
  { apply delimited_line; [|intros c r H; injection H as <- _; unfold rfc_WSP; lia].
    intros a w H [Hn Hw]. destruct w as [|x w] using rev_ind; [easy|]. clear IHw. change noise with ((bs " (a (\)) " ++ CRLF ++ bs " b)" ++ CRLF) ++ [32%N]) in H.
    rewrite (app_assoc a) in H. apply app_inj_tail in H as [H <-]. destruct w as [|y w] using rev_ind.
    - rewrite app_nil_r in H. exists (bs " (a (\)) " ++ CRLF ++ bs " b)" ++ [13%N]), 10%N. split; [now rewrite <- H|lia].
    - exfalso. apply Forall_app in Hw as [Hw _]. apply Forall_app in Hw as [_ Hw]. inversion Hw as [|? ? Y _]; subst.
      change (bs " (a (\)) " ++ CRLF ++ bs " b)" ++ CRLF) with ((bs " (a (\)) " ++ CRLF ++ bs " b)" ++ [13%N]) ++ [10%N]) in H. rewrite (app_assoc a) in H. apply app_inj_tail in H as [_ <-].
      unfold rfc_WSP in Y. lia. }
  split; [apply (delimited_char noise 64%N (bs "b")); [unfold rfc_VCHAR; lia|lia]|]. compute_all.
Qed.

(* ---- C31: message identifiers ---- *)
Theorem C31_message_id_back : forall E n c v i, same_nocase n (bs "Message-ID") -> written_id c v -> no_blank i ->
  field_message_id E (n ++ bs ": " ++ c ++ CRLF ++ i) = Ok (i, v).
Proof. exact message_id_read. Qed.
Print Assumptions C31_message_id_back.
Theorem C31_in_reply_to_back : forall E n c l i, same_nocase n (bs "In-Reply-To") -> written_ids c l -> no_blank i ->
  field_in_reply_to E (n ++ bs ": " ++ c ++ CRLF ++ i) = Ok (i, l).
Proof. exact in_reply_to_read. Qed.
Print Assumptions C31_in_reply_to_back.
Theorem C31_references_back : forall E n c l i, same_nocase n (bs "References") -> written_ids c l -> no_blank i ->
  field_references E (n ++ bs ": " ++ c ++ CRLF ++ i) = Ok (i, l).
Proof. exact references_read. Qed.
Print Assumptions C31_references_back.
Example C31_example : written_ids (bs "<a.b@c>" ++ bs "  " ++ bs "<d@[::1]>") [(bs "a.b", bs "c"); (bs "d", bs "::1")]
  /\ field_references env_default (bs "references" ++ bs ": " ++ (bs "<a.b@c>" ++ bs "  " ++ bs "<d@[::1]>") ++ CRLF ++ []) = Ok ([], [(bs "a.b", bs "c"); (bs "d", bs "::1")]).
Proof.
  split; [|vm_compute; reflexivity]. assert (S1 : forall x : string, chars1 rfc_atext (bs x) -> rfc_dot_atom_text false (bs x)).
  { intros x H. rewrite <- (app_nil_r (bs x)). constructor; auto. constructor. }
  apply ids_more.
  - apply (written_id_intro (bs "a.b") (bs "c") (bs "c")).
    + apply (dot_atom_text_intro _ (bs "a") (bs ".b")); [split; [discriminate|chars_ok]|]. apply (dot_tail_cons _ (bs "b") []); [chars_ok|right; discriminate|constructor].
    + apply bare_domain. apply S1. split; [discriminate|chars_ok].
  - chars_ok.
  - apply ids_one. apply (written_id_intro (bs "d") (bs "[::1]") (bs "::1")); [apply S1; split; [discriminate|chars_ok]|]. apply (literal_domain (bs "::1")). chars_ok.
Qed.
